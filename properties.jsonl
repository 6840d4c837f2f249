{"id": "C01", "title": "Bitset behaves like a sequence of booleans under any history of point and whole-set writes", "statement": "After any sequence of construction, Set/Reset (one bit or all), Flip, Resize, SetBlock-free clearing, Test(i) returns the value last given to bit i, GetSize() is the last size, and a call whose index is out of range is the only one that asserts; no bit other than the addressed one changes.", "quantifier": "every block width (8/16/32/64 bits), every finite sequence of operations with arbitrary arguments, every bit index", "why_tests_cant": "The state space is all bit contents times all sizes times all histories; block boundaries and partially used last blocks only show up for particular size/index/width combinations.", "anchors": ["include/NazaraUtils/Bitset.inl: Bitset::Set, Bitset::Reset, Bitset::Flip, Bitset::Resize, Bitset::Test, Bitset::Clear, Bitset::Bitset"]}
{"id": "C02", "title": "Bitset never leaks stale bits past its size", "statement": "After any sequence of operations of C01 (plus shifts, logical operations, reversal and unbounded writes), the storage bits at positions >= GetSize() are zero and the number of storage blocks is exactly the number needed for GetSize() bits, so Count, ==, To, TestAll/TestAny and a later growth never see a stale bit.", "quantifier": "every history of operations, every block width", "why_tests_cant": "Stale high bits are invisible to Test and only surface after a later Resize or comparison; a test must guess the exact pair of operations.", "anchors": ["include/NazaraUtils/Bitset.inl: Bitset::ResetExtraBits, Bitset::GetLastBlockMask, Bitset::Resize, Bitset::ShiftLeft, Bitset::PerformsNOT"]}
{"id": "C03", "title": "Bitset::Resize keeps the common prefix and fills the rest", "statement": "Resize(n, v) leaves every bit below min(old size, n) unchanged, sets every new bit to v and makes GetSize() = n; shrinking then growing again with v=false yields zeros in the re-grown part.", "quantifier": "every old size and content, every new size, both fill values, every block width", "why_tests_cant": "Depends on the interaction of old partial block, new partial block and fill value for all sizes.", "anchors": ["include/NazaraUtils/Bitset.inl: Bitset::Resize"]}
{"id": "C04", "title": "Bitset shifts move every bit by exactly the requested amount", "statement": "After ShiftLeft(k) bit i equals the old bit i-k (false when i<k); after ShiftRight(k) bit i equals the old bit i+k (false past the end); the size is unchanged and bits pushed past either end are lost, for every k including 0, multiples of the block width and k >= GetSize(). operator<< / >> return that result without touching the operand.", "quantifier": "every bitset, every shift amount, every block width", "why_tests_cant": "The in-place block algorithm has four regimes (k=0, k>=size, multiple of block, general) and aliasing between read and written blocks; all k and all sizes are needed.", "anchors": ["include/NazaraUtils/Bitset.inl: Bitset::ShiftLeft, Bitset::ShiftRight, Bitset::operator<<, Bitset::operator>>"]}
{"id": "C05", "title": "Bitset AND/OR/XOR/NOT are pointwise, also between different sizes and when operands alias the destination", "statement": "The result of &, |, ^ (and &=, |=, ^=, PerformsAND/OR/XOR with the destination being one or both of the operands) has the larger of the two sizes and bit i is the boolean operation of the operands' bits i, a missing bit counting as false; ~ negates every bit and keeps the size. Operands that are not the destination are unchanged.", "quantifier": "every pair of bitsets (any sizes), every aliasing pattern between destination and operands, every block width", "why_tests_cant": "Aliasing plus different block counts plus the unused tail: too many shape combinations, and the order of resize and reads matters.", "anchors": ["include/NazaraUtils/Bitset.inl: Bitset::PerformsAND, Bitset::PerformsOR, Bitset::PerformsXOR, Bitset::PerformsNOT, Bitset::operator&=, Bitset::operator|=, Bitset::operator^=, Bitset::operator~"]}
{"id": "C06", "title": "Iterating over set bits enumerates exactly the set positions, in increasing order, once each", "statement": "FindFirst returns the least set position or npos when none; FindNext(i) returns the least set position greater than i or npos; consequently IterBits() with prefix increment visits exactly the positions whose Test is true, in strictly increasing order, and terminates.", "quantifier": "every bitset, every starting position, every block width", "why_tests_cant": "Needs every pattern of empty blocks and partial blocks; a test samples a handful of masks.", "anchors": ["include/NazaraUtils/Bitset.inl: Bitset::FindFirst, Bitset::FindNext, Bitset::FindFirstFrom, Bitset::BitIterator"]}
{"id": "C07", "title": "Bitset queries Count, TestAll, TestAny, TestNone and Intersects agree with the bits", "statement": "Count() is the number of true bits, TestAll() holds iff all bits are true, TestAny() iff some bit is true, TestNone() iff none is, and a.Intersects(b) iff some position is true in both.", "quantifier": "every bitset or pair of bitsets", "why_tests_cant": "They work block-wise and rely on the unused tail bits being zero in every reachable state.", "anchors": ["include/NazaraUtils/Bitset.inl: Bitset::Count, Bitset::TestAll, Bitset::TestAny, Bitset::TestNone, Bitset::Intersects"]}
{"id": "C08", "title": "Bitset::Reverse mirrors the sequence", "statement": "After Reverse() bit i is the old bit size-1-i for every i, and reversing twice restores the bitset.", "quantifier": "every bitset", "why_tests_cant": "All sizes and contents, including odd sizes and sizes across several blocks.", "anchors": ["include/NazaraUtils/Bitset.inl: Bitset::Reverse"]}
{"id": "C09", "title": "Bitset string conversion round-trips", "statement": "ToString() of a bitset built from a string of '0'/'1' returns the same string, and building a bitset from b.ToString() gives a bitset with the same size and bits; any other character makes construction fail an assertion.", "quantifier": "every string, every bitset", "why_tests_cant": "All strings of all lengths.", "anchors": ["include/NazaraUtils/Bitset.inl: Bitset::Bitset(const char*, std::size_t), Bitset::ToString"]}
{"id": "C10", "title": "Bitset integer conversion round-trips", "statement": "For every unsigned integer type T and value x, Bitset(x).To<T>() == x whatever the block width; To<T>() equals the sum of 2^i over true bits i and asserts exactly when the bitset has more bits than T.", "quantifier": "every value of every unsigned width 8..64 against every block width 8..64", "why_tests_cant": "2^64 values times width combinations; narrow-block and wide-block paths differ.", "anchors": ["include/NazaraUtils/Bitset.inl: Bitset::Bitset(T), Bitset::To"]}
{"id": "C11", "title": "AppendBits appends exactly the bitCount low bits of its argument", "statement": "After AppendBits(v, n) the size grew by n, the old bits are unchanged, the new bit number k is bit k of v for k<n, and nothing else becomes observable (Count, ==, later growth).", "quantifier": "every bitset, every unsigned argument type and value, every n, every block width", "why_tests_cant": "The defect needs an unaligned current size together with set bits above n, or an append ending exactly on a 32/64-bit block boundary.", "anchors": ["include/NazaraUtils/Bitset.inl: Bitset::AppendBits"]}
{"id": "C12", "title": "Reading a byte buffer in chunks equals reading it at once", "statement": "Write(ptr, n) appends the first n bits of the buffer (bit k of the stream is bit k mod 8 of byte k / 8), the returned sequence designates bit n of the stream, continuing from it with any split n = n1+...+nk gives the same bitset, and no byte beyond the last needed one is read; n = 0 reads nothing and returns the same position.", "quantifier": "every buffer, every list of chunk lengths, every block width", "why_tests_cant": "All splits of all lengths, with partial bytes at both ends.", "anchors": ["include/NazaraUtils/Bitset.inl: Bitset::Write, Bitset::FromPointer"]}
{"id": "C13", "title": "Bitset equality is equality of the denoted sets of positions", "statement": "a == b iff for every position (missing positions counting as false) the bits agree; == is an equivalence relation and != is its negation.", "quantifier": "every pair (and triple) of bitsets", "why_tests_cant": "All pairs of contents of possibly different sizes.", "anchors": ["include/NazaraUtils/Bitset.inl: operator==, operator!="]}
{"id": "C14", "title": "Bitset ordering is a strict weak order consistent with ==", "statement": "operator< compares bitsets as binary numbers: exactly one of a<b, a==b, b<a holds, < is transitive, and no comparison reads outside the storage.", "quantifier": "every pair and triple of bitsets", "why_tests_cant": "Asymmetry and totality quantify over all pairs; a test on a few ordered samples passes even when two bitsets are both less than each other.", "anchors": ["include/NazaraUtils/Bitset.inl: operator<, operator<=, operator>, operator>="]}
{"id": "C15", "title": "Unbounded accessors make a bitset act as an infinite bit string", "statement": "UnboundedTest(i) is false beyond the size; UnboundedSet(i,true) makes exactly bit i true, growing to i+1 only when needed and filling with false; UnboundedSet(i,false)/UnboundedReset(i) never change the size nor any other bit.", "quantifier": "every bitset, every index, every history of unbounded writes", "why_tests_cant": "Unbounded index range and histories.", "anchors": ["include/NazaraUtils/Bitset.inl: Bitset::UnboundedSet, Bitset::UnboundedReset, Bitset::UnboundedTest"]}
{"id": "C16", "title": "Bit iterator postfix increment returns the old position and advances the iterator", "statement": "For an iterator it over set bits, *it++ yields the current position and leaves it at the next set position, as the input-iterator category it declares requires.", "quantifier": "every bitset, every iterator position", "why_tests_cant": "Universally quantified over bitsets; the library's tests only use range-for (prefix).", "anchors": ["include/NazaraUtils/Bitset.inl: Bitset::BitIterator::operator++(int)"]}
{"id": "C17", "title": "A moved-from Bitset is still usable", "statement": "After moving from a bitset (construction or assignment), the source is in a valid state: GetSize() agrees with its storage, and calling Test/Set/Resize within GetSize() never accesses storage out of range.", "quantifier": "every source bitset, every later operation", "why_tests_cant": "Depends on the content at the time of the move and on what is called afterwards.", "anchors": ["include/NazaraUtils/Bitset.hpp: Bitset(Bitset&&), operator=(Bitset&&)"]}
{"id": "C18", "title": "Bit proxies write through to exactly one bit", "statement": "b[i] = v, |=, &=, ^=, -=, Flip, Set, Reset on a bit proxy change only bit i, to the documented boolean combination, and reading the proxy gives Test(i).", "quantifier": "every bitset, index, operand", "why_tests_cant": "All block widths, indices and contents.", "anchors": ["include/NazaraUtils/Bitset.inl: Bitset::Bit"]}
{"id": "C19", "title": "CountBits is the population count on both the run-time and the constant-evaluation path", "statement": "For every unsigned value CountBits(v) is the number of one bits on both paths; for negative values of narrow signed types both paths agree.", "quantifier": "every value of every integer type", "why_tests_cant": "2^64 inputs; the two paths are selected by the compiler, not by the input.", "anchors": ["include/NazaraUtils/MathUtils.inl: CountBits"]}
{"id": "C20", "title": "FindFirstBit / FindLastBit give one plus the index of the lowest / highest set bit, zero for zero, on both paths", "statement": "FindFirstBit(v)=0 iff v=0, otherwise bit FindFirstBit(v)-1 is set and all lower ones clear; symmetrically for FindLastBit; run-time and constant-evaluation paths agree.", "quantifier": "every value of every unsigned integer type (and the signed narrow types for agreement)", "why_tests_cant": "2^64 inputs; De Bruijn tables are only right for all 32/64 powers.", "anchors": ["include/NazaraUtils/MathUtils.inl: FindFirstBit, FindLastBit, Detail::IntegralLog2Pot"]}
{"id": "C21", "title": "IntegralLog2 is the floor of the base-2 logarithm", "statement": "IntegralLog2(v) = floor(log2 v) for v>0 and 0 for v=0, for every integer type (a negative argument gives the top bit index of its 32- or 64-bit pattern).", "quantifier": "every value of every integer type", "why_tests_cant": "The 64-bit variant fails only on a 2^32-wide band out of 2^64 values.", "anchors": ["include/NazaraUtils/MathUtils.inl: IntegralLog2, Detail::IntegralLog2"]}
{"id": "C22", "title": "IntegralLog2Pot inverts powers of two", "statement": "IntegralLog2Pot(2^k) = k for every power of two of every integer type, and IntegralLog2Pot(0) = 0.", "quantifier": "every power of two of every width", "why_tests_cant": "Finite but easy to sample badly; needed as a lemma for C20.", "anchors": ["include/NazaraUtils/MathUtils.inl: IntegralLog2Pot, Detail::IntegralLog2Pot"]}
{"id": "C23", "title": "Align and AlignPow2 round up to the least multiple", "statement": "For a positive alignment and no wrap-around, Align(o,a) is the least multiple of a that is >= o; for a power-of-two alignment AlignPow2 equals Align; for signed negative offsets both still agree and round up.", "quantifier": "every offset and alignment of every integer type", "why_tests_cant": "All pairs of 64-bit values; overflow and negative offsets are corners.", "anchors": ["include/NazaraUtils/MathUtils.inl: Align, AlignPow2"]}
{"id": "C24", "title": "RoundToPow2 and GetNearestPowerOfTwo return the least power of two not below the argument", "statement": "For every value whose rounded-up power of two is representable, both return that power; GetNearestPowerOfTwo terminates for every input; RoundToPow2(x) is a power of two.", "quantifier": "every value of every integer type, before and since C++20", "why_tests_cant": "Includes values above the top power of two and zero, where termination/overflow matter.", "anchors": ["include/NazaraUtils/MathUtils.inl: RoundToPow2, GetNearestPowerOfTwo, IsPow2"]}
{"id": "C25", "title": "ByteSwap reverses the byte order and is an involution; endianness conversions round-trip", "statement": "Byte k of ByteSwap(v) is byte n-1-k of v for every width; ByteSwap(ByteSwap(v)) = v; HostToBigEndian stores the most significant byte first on either kind of host; BigEndianToHost(HostToBigEndian(v)) = v and same for little endian; SwapBytes on a buffer reverses it.", "quantifier": "every value of every integer type, negative ones included; every buffer for SwapBytes; both host endiannesses", "why_tests_cant": "All values; the host endianness of the test machine is fixed.", "anchors": ["include/NazaraUtils/MathUtils.inl: ByteSwap, Detail::ByteSwapImpl, SwapBytes", "include/NazaraUtils/Endianness.inl: BigEndianToHost, LittleEndianToHost, HostToBigEndian, HostToLittleEndian"]}
{"id": "C26", "title": "ReverseBits mirrors the bits and is an involution", "statement": "Bit i of ReverseBits(v) is bit w-1-i of v for every i, hence applying it twice gives v back, for every integer type, negative values included.", "quantifier": "every value of every width", "why_tests_cant": "256-entry table and all 64-bit values.", "anchors": ["include/NazaraUtils/MathUtils.inl: ReverseBits, Detail::s_BitReverseTable256"]}
{"id": "C27", "title": "SetBit/ClearBit/ToggleBit/TestBit affect exactly the addressed bit", "statement": "For in-range bit indices each changes (or reads) exactly that bit and leaves the others; an out-of-range index asserts.", "quantifier": "every value, every bit index, every integer type, signed or not", "why_tests_cant": "All value/index pairs.", "anchors": ["include/NazaraUtils/MathUtils.inl: SetBit, ClearBit, ToggleBit, TestBit"]}
{"id": "C28", "title": "Clamp and Approach stay between their bounds and converge", "statement": "Clamp(v,lo,hi) with lo<=hi is the closest value to v in [lo,hi]; Approach moves towards the objective by at most increment, never past it, and reaches it after finitely many steps when increment>0 - for every integer type including unsigned ones.", "quantifier": "every value triple of signed/unsigned types, every number of steps", "why_tests_cant": "All triples; wrap-around of unsigned subtraction is a corner.", "anchors": ["include/NazaraUtils/MathUtils.inl: Clamp, Approach"]}
{"id": "C29", "title": "NumberEquals is 'absolute difference at most max' for all integer types", "statement": "For every integer type and non-negative maxDifference, NumberEquals(a,b,d) holds iff |a-b| <= d mathematically, even when a-b overflows.", "quantifier": "every triple of every integer type", "why_tests_cant": "All triples, including extremes of signed types; narrow signed types are promoted.", "anchors": ["include/NazaraUtils/MathUtils.inl: NumberEquals, Detail::NumberEquals"]}
{"id": "C30", "title": "ArithmeticRightShift is floor division by a power of two; IntegralPow is exact modulo the type", "statement": "ArithmeticRightShift(v,s) = floor(v / 2^s) for 0<=s<width, in both the C++20 and the pre-C++20 implementation (given an implementation-defined shift that is either arithmetic or logical); IntegralPow(b,e) = b^e modulo 2^width for unsigned types.", "quantifier": "every value, shift, base and exponent", "why_tests_cant": "All values; the pre-C++20 branch depends on the compiler's shift.", "anchors": ["include/NazaraUtils/MathUtils.inl: ArithmeticRightShift, IntegralPow"]}
{"id": "C31", "title": "FixedVector behaves like a std::vector bounded by its capacity", "statement": "After any sequence of push_back, emplace_back, emplace/insert at a position, erase of one or of a range, pop_back, resize, clear, the contents and size equal those of a plain sequence given the same operations; an operation that would exceed the capacity, or an out-of-range position, asserts and nothing else does.", "quantifier": "every capacity, every finite operation sequence, every element values", "why_tests_cant": "Unbounded histories; element shifting bugs appear only for particular position/size pairs.", "anchors": ["include/NazaraUtils/FixedVector.inl: FixedVector::emplace, emplace_back, insert, erase, push_back, pop_back, resize, clear"]}
{"id": "C32", "title": "Every element object is constructed and destroyed exactly once", "statement": "In any history of the operations of C31 followed by destruction, storage is never constructed over a live object, never destroyed twice, never read when not live, and when the vector is destroyed no live object remains.", "quantifier": "every capacity, every history", "why_tests_cant": "Lifetime errors do not change observable values for trivial types; all histories must be considered.", "anchors": ["include/NazaraUtils/FixedVector.inl: FixedVector::emplace, erase, resize, clear, ~FixedVector", "include/NazaraUtils/MemoryHelper.inl: PlacementNew, PlacementDestroy"]}
{"id": "C33", "title": "HybridVector spilling to its fallback is unobservable", "statement": "For a HybridVector, in any history of the operations of C31, contents and size are those of an unbounded sequence, whatever the inline capacity; at the moment of the spill every element is carried over in order and no element is lost, duplicated or leaked.", "quantifier": "every inline capacity, every history", "why_tests_cant": "The spill happens once, at a history-dependent moment, during any of six operations.", "anchors": ["include/NazaraUtils/FixedVector.inl: CheckFallbackOnGrow, MoveStorageToFallback, EmplaceBackInFallback"]}
{"id": "C34", "title": "Copying a FixedVector/HybridVector yields an equal independent vector and loses nothing", "statement": "After b = a or construction of b from a: b's contents equal a's, a is unchanged, the former elements of b have been destroyed, also when a and b are the same object or when either one uses its fallback storage.", "quantifier": "every pair of source/target states (inline or spilled), self-assignment", "why_tests_cant": "Four storage-state combinations times self-assignment, with a leak invisible to value checks.", "anchors": ["include/NazaraUtils/FixedVector.inl: FixedVector::operator=(const FixedVector&), FixedVector(const FixedVector&)"]}
{"id": "C35", "title": "Moving a FixedVector/HybridVector transfers the contents and loses nothing", "statement": "After b = std::move(a) or construction: b's contents equal a's old contents, b's former elements have been destroyed exactly once, a is in a state where every operation is still memory-safe.", "quantifier": "every pair of source/target states", "why_tests_cant": "Same state combinations as C34.", "anchors": ["include/NazaraUtils/FixedVector.inl: FixedVector::operator=(FixedVector&&), FixedVector(FixedVector&&)"]}
{"id": "C36", "title": "Inserting or pushing an element of the vector itself is safe", "statement": "v.push_back(v[i]) and v.insert(pos, v[i]) insert the value v[i] had before the call, as std::vector guarantees, also when the call spills a HybridVector.", "quantifier": "every vector state, position and aliased index", "why_tests_cant": "Needs the aliased index to be at or after the insertion point, or a spill at exactly that call.", "anchors": ["include/NazaraUtils/FixedVector.inl: push_back, insert, emplace", "include/NazaraUtils/StackVector.inl: push_back, insert, emplace"]}
{"id": "C37", "title": "push_back of an rvalue moves the element", "statement": "push_back(T&&) moves from its argument both in inline storage and once spilled to the fallback.", "quantifier": "every vector state", "why_tests_cant": "Only the spilled state is wrong and values look identical.", "anchors": ["include/NazaraUtils/FixedVector.inl: push_back(T&&)"]}
{"id": "C38", "title": "StackVector behaves like a bounded std::vector with correct lifetimes", "statement": "Same as C31 and C32 for StackVector over caller-provided memory of any capacity.", "quantifier": "every capacity, every history", "why_tests_cant": "Unbounded histories.", "anchors": ["include/NazaraUtils/StackVector.inl: emplace, emplace_back, erase, push_back, pop_back, resize, clear, ~StackVector"]}
{"id": "C39", "title": "A moved-from StackVector (or StackArray) can be destroyed safely", "statement": "After moving a StackVector/StackArray, destroying both objects destroys every element exactly once and touches no other memory.", "quantifier": "every size", "why_tests_cant": "The bad access needs a moved-from vector with at least two elements of a non-trivial type.", "anchors": ["include/NazaraUtils/StackVector.hpp: StackVector(StackVector&&)", "include/NazaraUtils/StackArray.hpp: StackArray(StackArray&&)", "include/NazaraUtils/MovablePtr.inl"]}
{"id": "C40", "title": "MemoryPool never hands out an entry that is still allocated", "statement": "In any history of Allocate, Free and Clear, the index and address returned by Allocate differ from those of every entry currently allocated, and Allocate always succeeds (growing by one block only when every entry is used).", "quantifier": "every block size >= 1, every history of Allocate/Free/Clear", "why_tests_cant": "Double hand-out needs a particular allocation/free pattern across blocks; unbounded histories.", "anchors": ["include/NazaraUtils/MemoryPool.inl: Allocate, Free, AllocateBlock, Clear"]}
{"id": "C41", "title": "MemoryPool counters and reuse", "statement": "GetAllocatedEntryCount() equals the number of outstanding allocations, GetFreeEntryCount() = blocks*blockSize - outstanding, freed entries become available again before a new block is added, and Allocate reuses the lowest free index of the first block having room.", "quantifier": "every history", "why_tests_cant": "Unbounded histories.", "anchors": ["include/NazaraUtils/MemoryPool.inl: GetAllocatedEntryCount, GetFreeEntryCount, Allocate, Free"]}
{"id": "C42", "title": "MemoryPool indices and addresses correspond", "statement": "RetrieveFromIndex(i) of a returned index is the returned address, RetrieveEntryIndex(p) of a returned pointer is its index, both stay valid until freed whatever other allocations happen, and RetrieveFromIndex of an unallocated index is never a live object of someone else.", "quantifier": "every history; every block size; every placement of the blocks in memory", "why_tests_cant": "Pointer stability and inverse mapping for all states.", "anchors": ["include/NazaraUtils/MemoryPool.inl: RetrieveFromIndex, RetrieveEntryIndex, GetAllocatedPointer"]}
{"id": "C43", "title": "MemoryPool::RetrieveEntryIndex is right for over-aligned pools", "statement": "The correspondence of C42 also holds when the pool's Alignment parameter is larger than the element size requires.", "quantifier": "every element size, alignment, block size", "why_tests_cant": "Only differs when alignment padding makes the stride larger than sizeof(T).", "anchors": ["include/NazaraUtils/MemoryPool.inl: RetrieveEntryIndex"]}
{"id": "C44", "title": "Iterating a MemoryPool visits exactly the allocated entries in index order", "statement": "begin()..end() visits every outstanding allocation exactly once, in increasing index order, skipping free entries and empty blocks.", "quantifier": "every history", "why_tests_cant": "All patterns of holes and empty blocks.", "anchors": ["include/NazaraUtils/MemoryPool.inl: begin, end, GetFirstAllocatedEntryFromBlock, GetNextAllocatedEntry, MemoryPoolIterator::operator++"]}
{"id": "C45", "title": "MemoryPool::Reset frees everything and restores full capacity", "statement": "After Reset() no entry is allocated, every object has been destroyed exactly once, and the pool again serves blocks*blockSize allocations without growing, each iteration visiting only entries allocated since.", "quantifier": "every pool state before Reset and every history after", "why_tests_cant": "The pool looks empty right after Reset; the damage appears only in later allocations, iterations or a second Reset.", "anchors": ["include/NazaraUtils/MemoryPool.inl: Reset"]}
{"id": "C46", "title": "Objects in a MemoryPool are destroyed exactly once", "statement": "Free(index) destroys exactly that object, destruction of the pool (or Clear) destroys exactly the remaining ones; NoDestruction never destroys.", "quantifier": "every history of Allocate/Free/Clear", "why_tests_cant": "Lifetime accounting over all histories.", "anchors": ["include/NazaraUtils/MemoryPool.inl: Free, Reset, Clear, ~MemoryPool"]}
{"id": "C47", "title": "Emitting a signal calls every connected slot exactly once", "statement": "For callbacks that do not touch the signal, emission calls each connected slot exactly once and each disconnected slot not at all, after any history of Connect/Disconnect.", "quantifier": "every history of connections and disconnections", "why_tests_cant": "Swap-with-last removal permutes slots; all histories matter.", "anchors": ["include/NazaraUtils/Signal.inl: Signal::operator(), Signal::Connect, Signal::Disconnect"]}
{"id": "C48", "title": "Disconnecting slots from inside a callback neither skips nor repeats other slots", "statement": "When callbacks disconnect arbitrary slots (themselves, already called ones, not yet called ones) during emission, each slot that stays connected for the whole emission is called exactly once, and a slot disconnected before its turn is not called.", "quantifier": "every set of slots, every assignment of disconnection lists to callbacks", "why_tests_cant": "Exponentially many disconnect schedules; the index arithmetic has three cases.", "anchors": ["include/NazaraUtils/Signal.inl: Signal::Disconnect, Signal::operator()"]}
{"id": "C49", "title": "Connecting slots from inside a callback does not disturb the current emission", "statement": "When callbacks also connect new slots, slots connected for the whole emission are still called exactly once.", "quantifier": "every schedule of connects and disconnects inside callbacks", "why_tests_cant": "Only the first slot disconnecting itself and then connecting breaks it.", "anchors": ["include/NazaraUtils/Signal.inl: Signal::Connect, Signal::Disconnect, Signal::operator()"]}
{"id": "C50", "title": "Connections report and end exactly their own slot", "statement": "IsConnected() of a connection is true iff its slot has been connected and not yet removed (by Disconnect, Clear or destruction of the signal); Disconnect removes exactly that slot and is idempotent; other connections are unaffected; a ConnectionGuard disconnects on destruction, re-assignment and move as documented.", "quantifier": "every history over any number of connections and guards", "why_tests_cant": "Index bookkeeping after swap-with-last removal must be right in every history.", "anchors": ["include/NazaraUtils/Signal.inl: Connection::Disconnect, Connection::IsConnected, ConnectionGuard"]}
{"id": "C51", "title": "Nested emission calls every slot", "statement": "If a callback emits the same signal again, the outer emission still calls every slot connected throughout.", "quantifier": "every slot position and slot count", "why_tests_cant": "Needs re-entrancy at a non-last slot.", "anchors": ["include/NazaraUtils/Signal.inl: Signal::operator()"]}
{"id": "C52", "title": "Moving a Signal transfers the slots and leaves an empty signal", "statement": "After signal b = std::move(a), emitting b calls a's former slots, connections to them still work and target b, and emitting or connecting on a is safe and calls nothing.", "quantifier": "every number of slots in source and target", "why_tests_cant": "Depends on whether each side holds one slot (inline) or several (spilled).", "anchors": ["include/NazaraUtils/Signal.inl: Signal::Signal(Signal&&), Signal::operator=(Signal&&)"]}
{"id": "C53", "title": "CRC32 computes the standard reflected CRC-32 for every byte string", "statement": "CRC32 over bytes equals the bit-by-bit CRC-32 (polynomial 0xEDB88320, initial and final complement) of those bytes, identically through the pointer/size, string_view and C-string overloads.", "quantifier": "every byte string of every length", "why_tests_cant": "All strings; table-driven vs bitwise equivalence; char signedness.", "anchors": ["include/NazaraUtils/Hash.inl: CRC32, Detail::GenerateCRC32Table"]}
{"id": "C54", "title": "FNV1a32/FNV1a64 give the same hash for the same bytes through every overload", "statement": "Hashing the bytes of a text through the string_view overload, the C-string overload and the (UInt8*, size) overload gives the same value, equal to FNV-1a of the byte sequence.", "quantifier": "every byte string", "why_tests_cant": "Only strings with bytes >= 0x80 differ on platforms with signed char.", "anchors": ["include/NazaraUtils/Hash.inl: FNV1a32, FNV1a64"]}
{"id": "C55", "title": "HashCombine is lossless in the combined value", "statement": "For any seed, two values with different hashes combined into that seed give different results.", "quantifier": "every seed and every pair of hash values", "why_tests_cant": "2^192 combinations.", "anchors": ["include/NazaraUtils/Hash.inl: HashCombine"]}
{"id": "C56", "title": "Flags is a set of enumerators", "statement": "For an enum of up to 32 values, Test/Set/Clear/|/&/^/~ on Flags compute membership, union, difference, intersection, symmetric difference and complement within the enum's range; Test(f) holds iff every flag of f is set.", "quantifier": "every enum size up to 32, every flag sets", "why_tests_cant": "All pairs of flag sets for all enum sizes; integer promotion of narrow bitfields.", "anchors": ["include/NazaraUtils/Flags.inl: Flags::Test, Set, Clear, operator&, operator|, operator^, operator~"]}
{"id": "C57", "title": "Iterating Flags yields exactly the set enumerators in increasing order, Count of them", "statement": "begin()..end() yields each set enumerator once in increasing order and Count() is their number.", "quantifier": "every flag set", "why_tests_cant": "All flag sets.", "anchors": ["include/NazaraUtils/Flags.inl: Flags::iterator, Flags::Count"]}
{"id": "C58", "title": "Flags works for enums with more than 32 values", "statement": "All of C56 holds for enums of 33 to 64 values (the class selects a 64-bit field for them).", "quantifier": "every enum size 33..64, every enumerator", "why_tests_cant": "Needs an enum with more than 32 enumerators.", "anchors": ["include/NazaraUtils/Flags.inl: Flags::GetFlagValue", "include/NazaraUtils/Flags.hpp: Flags::ValueMask"]}
{"id": "C59", "title": "SparsePtr arithmetic obeys the random access iterator laws", "statement": "p[i] designates base + i*stride; (p+a)+b = p+(a+b); (p+n)-n = p; (p+n)-p = n; ++/-- are inverse; for every stride and every index type, signed or unsigned.", "quantifier": "every base, stride (positive or negative) and index of every integer type", "why_tests_cant": "Negative strides combined with unsigned index types; 32-bit overflow of index*stride.", "anchors": ["include/NazaraUtils/SparsePtr.inl: operator[], operator+, operator-, operator+=, operator-=, operator++, operator--"]}
{"id": "C60", "title": "SparsePtr ordering matches iteration order", "statement": "For stride > 0, p < q iff q-p > 0 within one strided sequence; the comparison is a total order on addresses.", "quantifier": "every pair of pointers of the same sequence", "why_tests_cant": "All strides.", "anchors": ["include/NazaraUtils/SparsePtr.inl: operator<, operator==, operator-"]}
{"id": "C61", "title": "Result is exactly one of value or error, and accessors never return the wrong side", "statement": "Exactly one of IsOk/IsErr holds; GetValue returns the stored value iff Ok and throws otherwise, GetError symmetric; GetValueOr returns the value or the default; Expect throws iff error; conversion between Result types preserves the side and the payload.", "quantifier": "every value/error payload, every accessor", "why_tests_cant": "All payloads and types.", "anchors": ["include/NazaraUtils/Result.inl: Result::GetValue, GetError, GetValueOr, Expect, IsOk, IsErr"]}
{"id": "C62", "title": "Result::Map applies the function once on success and never on error, and obeys the functor laws", "statement": "Map(f) on Ok(v) is Ok(f(v)) with f called exactly once; on Err(e) it is Err(e) with f not called; Map(id) = id and Map(g)(Map(f) r) = Map(g.f) r, for void and non-void values.", "quantifier": "every result, every functions", "why_tests_cant": "Quantifies over functions.", "anchors": ["include/NazaraUtils/Result.inl: Result::Map"]}
{"id": "C63", "title": "NAZARA_TRY propagates the first error and runs nothing after it", "statement": "In a sequence of NAZARA_TRY / NAZARA_TRY_VALUE steps, the result is the first failing step's error, no later step runs, and when all succeed the final result is returned.", "quantifier": "every sequence of steps and outcomes", "why_tests_cant": "All sequences.", "anchors": ["include/NazaraUtils/Result.hpp: NAZARA_TRY, NAZARA_TRY_VALUE"]}
{"id": "C64", "title": "Building a Result from an lvalue error copies it", "statement": "Err(e) with an lvalue e leaves e unchanged, for Result<V,E> and for Result<void,E>.", "quantifier": "every error value", "why_tests_cant": "Moved-from-ness of the caller's variable is not looked at by tests.", "anchors": ["include/NazaraUtils/Result.inl: Result<void, E>::Result(ResultError<T>), Err"]}
{"id": "C65", "title": "MovableLiteral/MovablePtr: the source of a move no longer carries the value", "statement": "After moving from a MovableLiteral (resp. MovablePtr) by construction, the source holds the default value (resp. null) and the destination the old value; along any chain of moves from one original a given non-default value is held by exactly one object.", "quantifier": "every history of constructions, copies excluded, and moves between any number of objects", "why_tests_cant": "Histories of moves, including move assignment which swaps.", "anchors": ["include/NazaraUtils/MovableValue.inl: MovableLiteral", "include/NazaraUtils/MovablePtr.inl: MovablePtr"]}
{"id": "C66", "title": "Assigning a MovableValue from an lvalue copies", "statement": "mv = x with an lvalue x (a T or another MovableValue) leaves x unchanged.", "quantifier": "every value", "why_tests_cant": "Overload resolution picks a forwarding overload for non-const lvalues.", "anchors": ["include/NazaraUtils/MovableValue.inl: MovableValue::operator=(U&&)"]}
{"id": "C67", "title": "CallOnExit runs its functor exactly once unless reset", "statement": "In any history of Reset/CallAndReset followed by destruction, the functor runs exactly once if Reset never came first, and not at all otherwise; it is never run twice.", "quantifier": "every history", "why_tests_cant": "All sequences.", "anchors": ["include/NazaraUtils/CallOnExit.inl: ~CallOnExit, CallAndReset, Reset"]}
{"id": "C68", "title": "CallOnExit move assignment transfers the duty to call", "statement": "After a = std::move(b), b's functor runs exactly once in total and a's former functor is not silently dropped.", "quantifier": "every pair of states", "why_tests_cant": "The double call occurs only at the second destructor.", "anchors": ["include/NazaraUtils/CallOnExit.hpp: CallOnExit::operator=(CallOnExit&&)"]}
{"id": "C69", "title": "PrivateImpl owns its object: no leak, no double free", "statement": "In any history of construction, copy, move, Emplace, Reset, assignment and destruction over any number of handles, every implementation object is destroyed exactly once and no handle refers to a destroyed object - including self-assignment and copying from an empty handle.", "quantifier": "every history over any number of handles", "why_tests_cant": "Ownership errors need particular sequences (self-assignment, empty source).", "anchors": ["include/NazaraUtils/PrivateImpl.inl: PrivateImpl"]}
{"id": "C70", "title": "EnumArray key/value iteration visits each enumerator once with its own value", "statement": "iter_kv() yields the pairs (e, array[e]) for all enumerators in increasing order, each once; writing through the iterator at key e changes exactly array[e].", "quantifier": "every enum size, every array", "why_tests_cant": "All sizes.", "anchors": ["include/NazaraUtils/EnumArray.inl: EnumArrayKvIterator"]}
{"id": "C71", "title": "TypeList algebra", "statement": "TypeListFind returns the first index of a type or npos; TypeListHas iff present; TypeListRemove removes exactly all occurrences and keeps order; TypeListUnique keeps first occurrences in order with no duplicate; Append/Prepend/Concat/At/Transform are list append/prepend/concatenation/indexing/map; TypeListApply calls in order once per element.", "quantifier": "every list of types", "why_tests_cant": "Meta-programs are tested on a few lists only.", "anchors": ["include/NazaraUtils/TypeList.inl"]}
{"id": "C72", "title": "TypeName returns the name of the type", "statement": "For a compiler-provided signature text containing the type name X, TypeName yields exactly X, whatever X's length.", "quantifier": "every type name text", "why_tests_cant": "Fails only for long names.", "anchors": ["include/NazaraUtils/TypeName.inl: NzDetailTypeName"]}
{"id": "C73", "title": "SafeCast fails its debug assertion exactly when the value is not representable", "statement": "For integer source and destination types, SafeCast<To>(v) asserts (in debug) iff v is not representable in To, for prvalues and for variables alike; otherwise it returns v unchanged.", "quantifier": "every pair of integer types, every value, both value categories", "why_tests_cant": "64 type pairs times all values; checks are silently skipped for some.", "anchors": ["include/NazaraUtils/Algorithm.inl: SafeCast, SafeCaster"]}
{"id": "C74", "title": "FunctionRef forwards to the referenced callable", "statement": "Calling a FunctionRef calls the referenced callable exactly once with the given arguments, with its current state, and copies of the FunctionRef refer to the same callable; bool conversion is false iff built from nullptr.", "quantifier": "every callable and argument, every history of copies and calls", "why_tests_cant": "Aliasing between copies and stateful callables.", "anchors": ["include/NazaraUtils/FunctionRef.inl: FunctionRef"]}
{"id": "C75", "title": "FixedBitset and HybridBitset capacity is sufficient", "statement": "A FixedBitset<Block, Capacity> can hold Capacity bits: the number of blocks needed for any size up to Capacity never exceeds its storage capacity.", "quantifier": "every capacity, every block width", "why_tests_cant": "All capacities and widths.", "anchors": ["include/NazaraUtils/Bitset.hpp: FixedBitset, HybridBitset"]}
{"id": "C76", "title": "StackArray constructs and destroys each element exactly once, with checked access", "statement": "Constructing a StackArray of n elements constructs exactly the first n cells of the given memory, operator[] and back() assert out of range and otherwise designate the element, fill and element assignment change exactly the elements, front() of an empty array is refused, and destruction destroys each element once.", "quantifier": "every size, every memory, every element value", "why_tests_cant": "Lifetimes are invisible for trivial types; every size must be considered.", "anchors": ["include/NazaraUtils/StackArray.inl: StackArray, ~StackArray, fill, front, back, operator[]"]}
{"id": "C77", "title": "Changing one byte always changes CRC32 and FNV1a", "statement": "Two byte strings of the same length that differ in exactly one byte have different CRC32, FNV1a32 and FNV1a64.", "quantifier": "every byte string, every position, every pair of bytes", "why_tests_cant": "All strings, positions and byte pairs.", "anchors": ["include/NazaraUtils/Hash.inl: CRC32, FNV1a32, FNV1a64"]}
{"id": "C78", "title": "Converting a SparsePtr to a base class keeps designating the base subobjects", "statement": "SparsePtr<Base>(SparsePtr<Derived>) designates, for every element, the Base subobject of the Derived element, whatever its offset.", "quantifier": "every pointer, stride and base class offset", "why_tests_cant": "Needs a base class that is not at offset 0.", "anchors": ["include/NazaraUtils/SparsePtr.inl: SparsePtr::Reset(const SparsePtr<U>&)"]}
{"id": "C79", "title": "SafeCast from floating point to integer asserts exactly on values that are not integers of the type", "statement": "For a floating point value and an integer destination type, SafeCast asserts (in debug) iff the value is not an integer representable in the destination, and otherwise returns it; it never has undefined behaviour.", "quantifier": "every integer type, every finite value, infinities and NaN, every float precision, both value categories", "why_tests_cant": "All floating point values; the problem values are at the rounding of the limits.", "anchors": ["include/NazaraUtils/Algorithm.inl: SafeCast"]}
{"id": "C80", "title": "SafeCast of a pointer or reference to a derived class checks the dynamic type", "statement": "In debug, SafeCast to a derived class pointer or reference asserts iff the object is not of the derived class; StaticUniquePointerCast likewise.", "quantifier": "every class hierarchy, every dynamic type", "why_tests_cant": "Needs wrong downcasts, which are undefined behaviour in a test.", "anchors": ["include/NazaraUtils/Algorithm.inl: SafeCast, StaticUniquePointerCast"]}
{"id": "C81", "title": "Erasing, popping and shrinking keep a vector sound when element moves throw", "statement": "pop_back and a shrinking resize never throw; erase of one element or a range either returns the expected sequence or leaves by an exception of a move with a vector of the former size whose destructor destroys each object once.", "quantifier": "every vector, every position, every place of the exception", "why_tests_cant": "Exceptions out of moves at each possible step have to be injected.", "anchors": ["include/NazaraUtils/FixedVector.inl: erase, pop_back, resize", "include/NazaraUtils/StackVector.inl: erase, pop_back, resize"]}
{"id": "C82", "title": "An insertion that throws leaves a vector that can be destroyed", "statement": "When constructing the element throws, push_back, emplace_back and emplace leave the vector with its former elements (or at least destructible without undefined behaviour and leak).", "quantifier": "every vector with room, every position, every place of the exception", "why_tests_cant": "Exceptions have to be injected at every step; an undestroyed object is invisible to tests of values.", "anchors": ["include/NazaraUtils/FixedVector.inl: emplace, emplace_back, push_back", "include/NazaraUtils/StackVector.inl: emplace, emplace_back, push_back"]}
{"id": "C83", "title": "Constructors and growing resize that throw leak nothing", "statement": "When the construction of an element throws inside resize or a constructor of FixedVector or StackVector, every object constructed so far is destroyed exactly once.", "quantifier": "every size, every capacity, every place of the exception", "why_tests_cant": "Exceptions at every element; leaks are invisible to tests of values.", "anchors": ["include/NazaraUtils/FixedVector.inl: FixedVector, resize", "include/NazaraUtils/StackVector.inl: resize"]}
{"id": "C84", "title": "HybridVector going over to its fallback gives the strong guarantee", "statement": "When the fallback allocation or the construction of the pushed element throws, the HybridVector holds what it held before and is destroyed correctly.", "quantifier": "every HybridVector, every place of the exception", "why_tests_cant": "Needs failing allocations and throwing moves.", "anchors": ["include/NazaraUtils/FixedVector.inl: CheckFallbackOnGrow, MoveStorageToFallback, push_back, emplace_back"]}
{"id": "C85", "title": "MemoryPool stays usable when an allocation throws", "statement": "When the constructor of the object, or an allocation inside AllocateBlock, throws, the pool holds what it held and can go on allocating and be destroyed.", "quantifier": "every reachable pool, each allocation that can fail", "why_tests_cant": "Needs injected bad_alloc inside AllocateBlock and throwing constructors.", "anchors": ["include/NazaraUtils/MemoryPool.inl: Allocate, AllocateBlock, Reset, ~MemoryPool"]}
{"id": "C86", "title": "Callbacks that throw leave signals sound", "statement": "An exception out of a callback reaches the caller of the emission, the slots before it having been called once and those after it not at all; connections are what the callbacks made them, and all later operations and emissions behave as if no exception had happened.", "quantifier": "every reachable world of signals, every behaviour of the callbacks including nested emissions", "why_tests_cant": "The interrupted emission leaves the internal position somewhere in the middle; every later operation has to be tried from there.", "anchors": ["include/NazaraUtils/Signal.inl: Signal::operator(), Signal::Connect, Signal::Disconnect"]}
{"id": "C87", "title": "IsFinite, IsInfinity and IsNaN partition the floating point values, in constant expressions as at run time", "statement": "For every floating point value exactly one of IsFinite, IsInfinity and IsNaN holds, and the path taken in constant expressions answers as the one at run time.", "quantifier": "every value of every IEEE binary format", "why_tests_cant": "2^64 doubles, and two paths of which a test runs one.", "anchors": ["include/NazaraUtils/MathUtils.inl: IsFinite, IsInfinity, IsNaN"]}
{"id": "C88", "title": "NumberEquals on floating point numbers means a difference of at most maxDifference", "statement": "NumberEquals(a, b, d) is symmetric, the same in constant expressions as at run time, true of a number and itself, and true iff the exact difference of a and b is at most d.", "quantifier": "every pair of values and every d, of every IEEE binary format", "why_tests_cant": "The exact difference is not available to a test; the problem cases are at the rounding.", "anchors": ["include/NazaraUtils/MathUtils.inl: NumberEquals"]}
{"id": "C89", "title": "Clamp on floating point numbers stays in the interval", "statement": "Clamp(v, min, max) is v in [min, max] and else the nearer limit, and applying it twice changes nothing; its result always lies in [min, max].", "quantifier": "every value of every IEEE binary format, NaN and infinities included", "why_tests_cant": "All triples of floats.", "anchors": ["include/NazaraUtils/MathUtils.inl: Clamp"]}
{"id": "C90", "title": "Approach on floating point numbers moves towards the objective and never beyond", "statement": "Approach(v, o, i) with i >= 0 lies between v and o, is o when i covers the distance, and repeated application with i > 0 reaches o.", "quantifier": "every value of every IEEE binary format", "why_tests_cant": "All triples of floats; stalling needs increments below half an ulp.", "anchors": ["include/NazaraUtils/MathUtils.inl: Approach"]}
{"id": "C91", "title": "Lerp returns its end points", "statement": "Lerp(a, b, 0) is a, Lerp(a, b, 1) is b, Lerp(a, a, t) is a, and factors in [0, 1] give results between a and b.", "quantifier": "every pair of finite values of every IEEE binary format", "why_tests_cant": "All pairs of floats; depends on the rounding of b - a.", "anchors": ["include/NazaraUtils/MathUtils.inl: Lerp"]}
{"id": "C92", "title": "DegreeToRadian and RadianToDegree are odd and inverse to each other", "statement": "Both conversions commute with negation, map turns to turns, and converting back and forth returns the value.", "quantifier": "every value of every IEEE binary format", "why_tests_cant": "All floats.", "anchors": ["include/NazaraUtils/MathUtils.inl: DegreeToRadian, RadianToDegree"]}
{"id": "C93", "title": "Mod on floating point numbers is the same in constant expressions as at run time", "statement": "The value computed in a constant expression equals std::fmod of the arguments.", "quantifier": "every pair of values of every IEEE binary format", "why_tests_cant": "Two paths of which a test runs one; the difference is at rounded quotients.", "anchors": ["include/NazaraUtils/MathUtils.inl: Mod"]}
{"id": "C94", "title": "The UTF-8 conversions keep every byte", "statement": "ToUtf8String and FromUtf8String keep the bytes, length and address of their argument and are inverse to each other; for a pointer the result is the text before the first zero, and it does not change when the caller later reuses the buffer.", "quantifier": "every string, view and pointer into every memory, both language standards", "why_tests_cant": "All strings; the standards differ in the overload used.", "anchors": ["include/NazaraUtils/StringUtils.inl: FromUtf8String, ToUtf8String"]}
{"id": "C95", "title": "Transparent string hashing finds what was inserted, whatever the key type", "statement": "In an unordered_map with StringHash, find by pointer, view or string returns the value last inserted for that text, or end; equal texts have equal hashes.", "quantifier": "every hash function, every number of buckets, every history of insertions and erasures, every key", "why_tests_cant": "Depends on collisions and buckets of the hash function in use.", "anchors": ["include/NazaraUtils/StringHash.inl: StringHash::operator()"]}
{"id": "C96", "title": "Retrieve returns the value stored under the key", "statement": "Retrieve(map, key) is a reference to the mapped value of that key, so assigning through it changes this value only; a missing key is caught by the assertion.", "quantifier": "every map reached by insertions and erasures, every key", "why_tests_cant": "All maps and keys; the aliasing of the reference.", "anchors": ["include/NazaraUtils/Algorithm.inl: Retrieve"]}
{"id": "C97", "title": "Utf8Path and PathToString are inverse to each other", "statement": "PathToString(Utf8Path(s)) is s on POSIX, and on Windows s with backslashes turned into slashes, for all valid UTF-8; invalid UTF-8 is an exception there.", "quantifier": "every byte string", "why_tests_cant": "Tests run on one platform; all code points and all ill-formed sequences.", "anchors": ["include/NazaraUtils/PathUtils.inl: Utf8Path, PathToString", "include/NazaraUtils/StringUtils.inl"]}
{"id": "C98", "title": "BitCast is a bijection between representations", "statement": "BitCast<To>(v) is defined, BitCast<From> of it is v, between integers of the same width it is conversion modulo 2^n, and as bytes it is the byte order of the machine; std::bit_cast and the memcpy implementation agree.", "quantifier": "every pair of types of equal size among integers, bool, pointers, float, double and byte arrays, every value, both byte orders", "why_tests_cant": "2^64 values and two implementations of which one is compiled.", "anchors": ["include/NazaraUtils/Algorithm.inl: BitCast"]}
{"id": "C99", "title": "AccessByOffset with NazaraOffsetOf accesses the member and nothing else", "statement": "For a standard-layout class, what is written through AccessByOffset(&object, NazaraOffsetOf(T, m)) is read back by the same expression, the access is aligned and stays inside the member, and members do not overlap.", "quantifier": "every list of members of any size and power-of-two alignment, every object address", "why_tests_cant": "All layouts.", "anchors": ["include/NazaraUtils/Algorithm.inl: AccessByOffset", "include/NazaraUtils/OffsetOf.hpp: NazaraOffsetOf"]}
{"id": "C100", "title": "FunctionTraits describes every callable", "statement": "FunctionTraits<T> has the return and parameter types of the function called through T, for function types, pointers, member pointers with any qualifiers and classes with one call operator, through const and references.", "quantifier": "every type", "why_tests_cant": "A template is tested for the types named in the test.", "anchors": ["include/NazaraUtils/FunctionTraits.hpp: FunctionTraits"]}
{"id": "C101", "title": "IsFunctor tells whether FunctionTraits can be used", "statement": "IsFunctor<T> is never ambiguous and is true exactly for the types FunctionTraits accepts.", "quantifier": "every type", "why_tests_cant": "A template is tested for the types named in the test.", "anchors": ["include/NazaraUtils/FunctionTraits.hpp: IsFunctor"]}
{"id": "C102", "title": "Overload selects the function with the given parameters", "statement": "Overload<Args...>(f) is the function of the set f with parameters Args..., and ill-formed when there is none or several.", "quantifier": "every overload set, every list of parameter types", "why_tests_cant": "Errors are compile-time errors, which tests cannot contain.", "anchors": ["include/NazaraUtils/FunctionTraits.hpp: OverloadResolver, Overload"]}
{"id": "C103", "title": "The type traits compute what their names say", "statement": "EnumValueCount is the number of enumerators for enumerations with Count or Max; RemoveCvRef is idempotent and removes exactly references and qualifiers; PointedType, FunctionPtr, IsFirstType, IsComplete and PreventHiddenCopyMove satisfy their definitions.", "quantifier": "every type, every enumeration", "why_tests_cant": "A template is tested for the types named in the test.", "anchors": ["include/NazaraUtils/TypeTraits.hpp: EnumValueCount, FunctionPtr, IsComplete, IsFirstType, PointedType, RemoveCvRef, PreventHiddenCopyMove"]}
{"id": "C104", "title": "The constants are the numbers nearest to the mathematical ones, and the limits those of the type", "statement": "HalfPi, Pi, Tau, Sqrt2, Sqrt3 and Sqrt5 are the values of T nearest to the real constants, Tau = 2 Pi = 4 HalfPi, MaxValue and MinValue are the largest and least finite values of T, Infinity is beyond them, BitCount is the number of bits.", "quantifier": "float, double and x87 long double for the constants; every binary format and every integer type for the limits", "why_tests_cant": "Tests compare with constants written with the same digits.", "anchors": ["include/NazaraUtils/Constants.hpp: BitCount, MathConstants"]}
{"id": "C105", "title": "NazaraAssert is a statement", "statement": "NazaraAssert(c); can stand wherever a statement can: it evaluates c, stops the program iff c is false and changes nothing else; programs whose assertions hold run the same when it is compiled out.", "quantifier": "every program of expression statements, if, else and blocks, every condition, with and without side effects", "why_tests_cant": "Concerns programs that use the library, of every shape.", "anchors": ["include/NazaraUtils/Assert.hpp: NazaraAssert"]}
{"id": "C106", "title": "MultiplyAdd computes x * y + z with one rounding, whichever implementation is compiled", "statement": "The result is the number nearest to the exact x * y + z, the same with and without a fast std::fma; it is monotone in z.", "quantifier": "every triple of values of every IEEE binary format", "why_tests_cant": "All floats, and two implementations of which the target selects one.", "anchors": ["include/NazaraUtils/MathUtils.inl: MultiplyAdd"]}
{"id": "C107", "title": "The stack allocation macros provide memory for exactly the elements constructed in it", "statement": "NazaraStackArray(T, n) and NazaraStackVector(T, n) reserve memory for n aligned elements below the stack pointer, disjoint from that of the other macros of the function, evaluating n as an ordinary argument.", "quantifier": "every size expression (with its side effects), element size, alignment, stack pointer, platform with alloca and order of evaluation", "why_tests_cant": "Depends on the order of evaluation, on the stack pointer and on sizes no test reaches.", "anchors": ["include/NazaraUtils/StackArray.hpp: NazaraStackArray", "include/NazaraUtils/StackVector.hpp: NazaraStackVector", "include/NazaraUtils/MemoryHelper.hpp: NAZARA_ALLOCA"]}
{"id": "C108", "title": "NAZARA_DEFER runs the code when the block is left", "statement": "NAZARA_DEFER(e); followed by the rest of the block means try { rest } finally { e }: deferred code runs exactly once, in reverse order, however the block is left.", "quantifier": "every program of statements, blocks, conditionals, throws and deferred code", "why_tests_cant": "Concerns programs that use the library, of every shape.", "anchors": ["include/NazaraUtils/CallOnExit.hpp: NAZARA_DEFER"]}
{"id": "C109", "title": "A failed assertion prints its message and stops the program", "statement": "The text written for a failed assertion is the condition or the formatted message, followed by file and line; the program does not go on after it; an assertion that holds prints nothing.", "quantifier": "every condition text, message, argument list, file and line", "why_tests_cant": "Tests cannot survive a failed assertion, and see a few messages only.", "anchors": ["include/NazaraUtils/Assert.inl: AssertFailure, AssertFailureWithSource, Assert, AssertWithSource", "include/NazaraUtils/Assert.hpp: NazaraAssert, NazaraAssertMsg"]}
{"id": "C110", "title": "The preprocessor recognises compiler, language, platform, architecture and byte order", "statement": "For every set of predefined macros exactly one compiler is recognised, version checks compare versions, one platform, the one architecture whose macros are defined and the byte order are found, or there is an error.", "quantifier": "every environment of macros", "why_tests_cant": "Every environment of macros is a compiler; a test runs with one.", "anchors": ["include/NazaraUtils/Prerequisites.hpp: NAZARA_COMPILER_*, NAZARA_CHECK_*, NAZARA_PLATFORM_*, NAZARA_ARCH_*", "include/NazaraUtils/Endianness.hpp: NAZARA_BIG_ENDIAN, NAZARA_LITTLE_ENDIAN, PlatformEndianness"]}
{"id": "C111", "title": "Iterators of the fixed containers visit every element once, in order", "statement": "A loop from begin() to end() reads the contents in order, from rbegin() to rend() in reverse order; assigning through the iterators changes every element and nothing else; every loop ends.", "quantifier": "every history of operations, capacity, with and without fallback storage, every function applied to the elements", "why_tests_cant": "All histories and sizes; the storage iterated over changes with the history.", "anchors": ["include/NazaraUtils/FixedVector.inl: begin, end, rbegin, rend, data", "include/NazaraUtils/StackVector.inl: begin, end, rbegin, rend", "include/NazaraUtils/StackArray.inl: begin, end, rbegin, rend"]}
{"id": "C112", "title": "FixedBitset and HybridBitset behave as Bitset", "statement": "After any sequence of operations on FixedBitsets or HybridBitsets the bits, counts, searches, strings, integers and comparisons are those of a list of bits; a HybridBitset has no bound, a FixedBitset stops with an assertion exactly when a Bitset would or when the bits do not fit its blocks, and Capacity bits always fit.", "quantifier": "every history of operations on any number of bitsets, block width, capacity, with and without fallback storage", "why_tests_cant": "All histories, capacities and widths; storage moves between inline and heap at sizes tests rarely hit.", "anchors": ["include/NazaraUtils/Bitset.hpp: FixedBitset, HybridBitset", "include/NazaraUtils/Bitset.inl: every operation, on a FixedVector or HybridVector of blocks", "include/NazaraUtils/FixedVector.inl: resize, push_back, operator[], operator=, move and copy constructors"]}
{"id": "C113", "title": "Calls of the hash functions reach the overload for their argument", "statement": "CRC32, FNV1a32 and FNV1a64 of an array, a pointer, a string or a view hash the text; HashCombine returns the combination of the hashes of its arguments.", "quantifier": "every argument type, constness and value category, array size and content, type of std::size_t", "why_tests_cant": "Overload resolution ranks every pair of argument types and overloads; a test makes the calls it makes.", "anchors": ["include/NazaraUtils/Hash.hpp: CRC32, FNV1a32, FNV1a64, HashCombine", "include/NazaraUtils/Hash.inl: CRC32, FNV1a32, FNV1a64, HashCombine"]}
{"id": "C114", "title": "Arithmetic arguments select the function for a position, a size or a value", "statement": "Bitset::Set, Bitset::Reset, the constructors of Bitset, SparsePtr and FixedVector select for arguments of any arithmetic type the function that the number of arguments and their roles announce.", "quantifier": "every arithmetic type of every argument, constness, value category, the literal 0, type of std::size_t", "why_tests_cant": "All combinations of arithmetic types and platforms; a wrong choice compiles silently.", "anchors": ["include/NazaraUtils/Bitset.hpp: Set, Reset, Bitset", "include/NazaraUtils/SparsePtr.hpp: SparsePtr", "include/NazaraUtils/FixedVector.hpp: FixedVector"]}
{"id": "C115", "title": "A template that takes anything does not hide the functions next to it", "statement": "Where a template parameter accepts every argument (Bitset, PrivateImpl, MovableValue, Signal::Connect, SparsePtr::operator-, CountOf) the dedicated functions are selected for the arguments they are declared for.", "quantifier": "every argument type, constness and value category", "why_tests_cant": "Overload resolution depends on constness and value category in ways tests seldom vary.", "anchors": ["include/NazaraUtils/Bitset.hpp: Bitset, operator=", "include/NazaraUtils/PrivateImpl.hpp: PrivateImpl", "include/NazaraUtils/Signal.hpp: Connect", "include/NazaraUtils/MovableValue.hpp: operator=", "include/NazaraUtils/SparsePtr.hpp: operator-", "include/NazaraUtils/Algorithm.hpp: CountOf"]}
{"id": "C116", "title": "A slot is connected exactly while its guard holds it", "statement": "After any sequence of connecting, moving, assigning, disconnecting and destroying guards and clearing signals, the connected slots are those held by exactly one guard; copies of a signal start without slots and leave the original as it is; Connection::Connect leaves the former slot connected.", "quantifier": "every history of guards on any number of signals, every reached state for copies and reconnection", "why_tests_cant": "All histories of moves between guards matter; a wrong move disconnects a slot too early or never.", "anchors": ["include/NazaraUtils/Signal.inl: ConnectionGuard, Connection::Connect, Signal(const Signal&), operator=(const Signal&)"]}
{"id": "C117", "title": "Every callback receives the arguments emitted", "statement": "Whatever the callbacks do with their parameters, each slot receives the values emitted, parameters declared as references are the emitter's variables, and the emitter's variables passed by value or const reference do not change.", "quantifier": "every list of slots, parameter modes and values, every effect of the callbacks on their parameters, every reached state", "why_tests_cant": "An argument moved instead of copied is seen by the second callback only, and only for types whose moved-from value differs.", "anchors": ["include/NazaraUtils/Signal.inl: operator(), Connect"]}
{"id": "C118", "title": "The captures of a callback live while it runs", "statement": "A callback can use its captures after anything it does to signals and connections.", "quantifier": "every reached state, everything callbacks do to signals and connections, at every depth of nested emissions", "why_tests_cant": "Use of destroyed captures often goes unnoticed.", "anchors": ["include/NazaraUtils/Signal.inl: operator(), Disconnect, Clear, Connection::Disconnect"]}
{"id": "C119", "title": "The bit functions give the same results when compiled by MSVC", "statement": "CountBits, FindFirstBit and FindLastBit give the number of one bits of their argument and the position of its lowest and highest one bit on every machine MSVC compiles for.", "quantifier": "every integer type and value, x86, x64, ARM and ARM64, debug and release", "why_tests_cant": "Tests run on one compiler and one machine.", "anchors": ["include/NazaraUtils/MathUtils.inl: CountBits, FindFirstBit, FindLastBit", "include/NazaraUtils/Algorithm.inl: SafeCast"]}
{"id": "C120", "title": "Declarations around an enumeration configure its flags", "statement": "An enumeration enabled by EnumAsFlags or EnableEnumAsNzFlags has exactly its enumerators as flags, however their number is declared (Count, Max or EnumAsFlags::max), and AutoFlag decides whether enumerators are positions or values.", "quantifier": "every list of enumerators, every combination of the declarations", "why_tests_cant": "Each combination is another program.", "anchors": ["include/NazaraUtils/Flags.hpp: EnumAsFlags, EnableEnumAsNzFlags, EnableAutoFlagForNzFlags, IsEnumFlag, GetEnumAutoFlag, GetEnumFlagMax, Flags", "include/NazaraUtils/TypeTraits.hpp: EnumValueCount, IsComplete"]}
{"id": "C121", "title": "The macros that hide compiler features expand to valid code with one meaning", "statement": "Whatever the compiler and the language version, NAZARA_LIKELY and NAZARA_UNLIKELY test their argument, NAZARA_ASSUME and NazaraUnused are statements without effect, NAZARA_UNREACHABLE does not go on, and NAZARA_IS_CONSTEVAL and NAZARA_IS_RUNTIME_EVAL tell constant evaluation from run time.", "quantifier": "every set of macros predefined by a compiler, every expression and statement around the macros", "why_tests_cant": "Tests compile with a few compilers; the other expansions are never parsed.", "anchors": ["include/NazaraUtils/Prerequisites.hpp: NAZARA_ASSUME, NAZARA_LIKELY, NAZARA_UNLIKELY, NAZARA_UNREACHABLE, NazaraUnused", "include/NazaraUtils/ConstantEvaluated.hpp: NAZARA_IS_CONSTEVAL, NAZARA_IS_RUNTIME_EVAL, NAZARA_CONSTEXPR20"]}
{"id": "C122", "title": "A Bitset survives an allocation that fails", "statement": "When the container of a Bitset cannot get memory, every member that grows it (Resize, UnboundedSet, the logical operators, AppendBits, Write) leaves the bitset as it was before the call.", "quantifier": "every bitset, every argument, every aliasing of destination and operands, each allocation that can fail", "why_tests_cant": "Needs injected bad_alloc at every growth of the container.", "anchors": ["include/NazaraUtils/Bitset.inl: Resize, UnboundedSet, PerformsAND, PerformsNOT, PerformsOR, PerformsXOR, AppendBits, Write"]}
{"id": "C123", "title": "A Bitset compiled without assertions", "statement": "Compiled without assertions, Bitset behaves as with them for every history whose assertions hold, and a call with a violated precondition does not change the bitset or is undefined.", "quantifier": "every history of operations, every bitset, block width and argument", "why_tests_cant": "Tests run in one build mode; a disagreement between modes shows up in the other only.", "anchors": ["include/NazaraUtils/Bitset.inl: Set, Reset, Test, GetBlock, SetBlock, FindNext, Reverse, To, Write, operator<, PerformsAND, PerformsOR, PerformsXOR, PerformsNOT", "include/NazaraUtils/Assert.hpp: NazaraAssert, NazaraAssertMsg"]}
{"id": "C124", "title": "FixedVector and HybridVector compiled without assertions", "statement": "Compiled without assertions, FixedVector and HybridVector behave as with them for every history whose assertions hold, and a call with a violated precondition is undefined.", "quantifier": "every capacity, every history of operations, every reached vector, every violating call", "why_tests_cant": "Tests run in one build mode; what a violating call leaves behind is not observed.", "anchors": ["include/NazaraUtils/FixedVector.inl: emplace, insert, push_back, emplace_back, pop_back, erase, resize, reserve, operator[], CheckFallbackOnGrow", "include/NazaraUtils/Assert.hpp: NazaraAssert, NazaraAssertMsg"]}
{"id": "C125", "title": "StackVector and StackArray compiled without assertions", "statement": "Compiled without assertions, StackVector and StackArray behave as with them for every history whose assertions hold, and a call with a violated precondition is undefined.", "quantifier": "every capacity, every history of operations, every reached vector, every violating call", "why_tests_cant": "Tests run in one build mode; what a violating call leaves behind is not observed.", "anchors": ["include/NazaraUtils/StackVector.inl: emplace, insert, push_back, emplace_back, pop_back, erase, resize, operator[], front, back", "include/NazaraUtils/StackArray.inl: operator[], front, back", "include/NazaraUtils/Assert.hpp: NazaraAssert, NazaraAssertMsg"]}
{"id": "C126", "title": "Scalar functions, Flags iteration, SparsePtr and PrivateImpl compiled without assertions", "statement": "Compiled without assertions, the bit functions, IsPow2, Align, AlignPow2, the iterator of Flags, SparsePtr and PrivateImpl give the same results whenever the assertions hold; a violated one never gives a silent wrong result and never loses an object.", "quantifier": "every integral type, every value and bit index, every alignment, every stride, every history of PrivateImpl operations", "why_tests_cant": "Tests run in one build mode; a lost object is invisible to the program.", "anchors": ["include/NazaraUtils/MathUtils.inl: SetBit, ClearBit, ToggleBit, TestBit, IsPow2, Align, AlignPow2", "include/NazaraUtils/Flags.inl: iterator", "include/NazaraUtils/SparsePtr.inl: SparsePtr", "include/NazaraUtils/PrivateImpl.inl: Emplace", "include/NazaraUtils/Assert.hpp: NazaraAssert"]}
{"id": "C127", "title": "MemoryPool compiled without assertions", "statement": "Compiled without assertions, every history of a MemoryPool that keeps to its contract has the specified effect, and every violation is undefined.", "quantifier": "every block size, every history, every reached pool, every index, every size and alignment of T", "why_tests_cant": "Tests run in one build mode; a wrong index or an address of a free entry looks like a right one.", "anchors": ["include/NazaraUtils/MemoryPool.inl: Allocate, Free, Clear, Reset, RetrieveFromIndex, RetrieveEntryIndex, GetAllocatedPointer, GetFirstAllocatedEntryFromBlock, GetNextAllocatedEntry"]}
{"id": "C128", "title": "SafeCast to floating point types", "statement": "SafeCast to a floating point type accepts exactly the values the target can represent, and gives that value.", "quantifier": "every pair of binary formats, every number, infinities and NaN, every integer, lvalues and prvalues, both build modes", "why_tests_cant": "There are 2^64 doubles; rounding and the largest number are easily missed.", "anchors": ["include/NazaraUtils/Algorithm.inl: SafeCast"]}
{"id": "C129", "title": "FunctionRef takes exactly what it can call, for as long as it can", "statement": "The constructor of FunctionRef accepts an argument exactly when calling it through the reference compiles, the call then reaches what a direct call reaches, and the reference stays valid as long as the function named.", "quantifier": "every result type and conversion, functions, function pointers, every set of function call operators with const and ref-qualifiers, const or not, lvalues and temporaries, every program over callables and references", "why_tests_cant": "Each wrong acceptance is a compile error in one combination of const, category and result type; a dangling reference often still works in a test.", "anchors": ["include/NazaraUtils/FunctionRef.hpp: FunctionRef", "include/NazaraUtils/FunctionRef.inl: FunctionRef, operator()"]}
{"id": "C130", "title": "Errors CRC32 detects", "statement": "Two messages whose difference fits in 32 consecutive bits have different CRCs, wherever it lies and however long they are; of the 33-bit differences only the generator polynomial is missed; two wrong bits are detected unless their distance is a multiple of 2^32 - 1.", "quantifier": "all messages of any length, every position, every pattern of up to 33 bits, every distance between two bits", "why_tests_cant": "There are 2^32 patterns per position and unbounded messages; a reversed or mistyped table passes the check value of one string and loses the guarantee.", "anchors": ["include/NazaraUtils/Hash.inl: CRC32 (string_view, const UInt8*)", "include/NazaraUtils/Hash.inl: Detail::GenerateCRC32Table"]}
{"id": "C131", "title": "CRC32 of composed messages", "statement": "Appending a common suffix keeps equal CRCs equal and different ones different, and so does a common prefix for equal lengths; the CRC of the exclusive or of three messages of one length is the exclusive or of their CRCs; a message followed by its CRC has the CRC 0x2144DF1C; exactly one choice of four bytes appended gives any wanted CRC; leading zero bytes change the CRC.", "quantifier": "all messages of any length, all common parts, all wanted CRCs, every number of leading zeros below 2^32 - 1", "why_tests_cant": "Laws between runs on different messages; uniqueness of the four bytes ranges over 2^32 candidates per message.", "anchors": ["include/NazaraUtils/Hash.inl: CRC32 (string_view, const UInt8*)", "include/NazaraUtils/Hash.inl: Detail::GenerateCRC32Table"]}
{"id": "C132", "title": "FNV-1a and HashCombine keep what they are given", "statement": "FNV-1a of messages with a common suffix or prefix agree exactly when those of the messages do, zero bytes in front or at the end change the hash, and HashCombine gives different results for different seeds and values, whatever the width of std::size_t.", "quantifier": "all messages, suffixes, numbers of zero bytes, seeds, hashes and lists of combined values; std::size_t of 32 and 64 bits", "why_tests_cant": "Collisions are one in 2^32 or 2^64: no test meets them by chance, but they can be computed and hold for every continuation.", "anchors": ["include/NazaraUtils/Hash.inl: FNV1a32, FNV1a64", "include/NazaraUtils/Hash.inl: HashCombine"]}
{"id": "C133", "title": "Callbacks may destroy or move signals", "statement": "An emission whose callbacks destroy signals makes the same calls and leaves the same connections as one whose callbacks clear these signals instead, and an emission survives the destruction or the move of the signal being emitted.", "quantifier": "all worlds reached by any program, all behaviors of the callbacks (connecting, disconnecting, clearing, emitting, destroying signals, in nested emissions too)", "why_tests_cant": "What happens depends on which callback destroys which signal at which depth of nesting; reads of destroyed members rarely crash.", "anchors": ["include/NazaraUtils/Signal.inl: Signal::operator()", "include/NazaraUtils/Signal.inl: Signal::Signal(Signal&&), Signal::operator=(Signal&&)", "include/NazaraUtils/Signal.hpp: Signal::~Signal"]}
{"id": "C134", "title": "A MemoryPool can be changed while it is iterated", "statement": "A loop over a MemoryPool whose body allocates and frees entries visits each entry at most once, in increasing order of index, and every entry that stays allocated, and it ends.", "quantifier": "all pools reached by any history, all block sizes, all bodies (any sequence of Allocate, Free, Clear, constructions and destructions, depending on the entries visited so far)", "why_tests_cant": "The interaction of the position of the iterator with later changes of any block has unboundedly many cases; loops that do not end cannot be tested for.", "anchors": ["include/NazaraUtils/MemoryPool.inl: MemoryPoolIterator::operator++, MemoryPoolIterator::operator*", "include/NazaraUtils/MemoryPool.inl: GetNextAllocatedEntry, GetFirstAllocatedEntryFromBlock", "include/NazaraUtils/MemoryPool.inl: Allocate, Free, Clear"]}
{"id": "C135", "title": "A Bitset can be changed while its bits are iterated", "statement": "A loop over the set bits of a Bitset whose body changes it (and other bitsets) visits each position at most once, in increasing order, and every position that stays set, and it ends.", "quantifier": "all bitsets, all block widths, all bodies (any sequence of the operations of C01, depending on the positions visited so far)", "why_tests_cant": "The interaction of the position of the iterator with later changes has unboundedly many cases; loops that do not end cannot be tested for.", "anchors": ["include/NazaraUtils/Bitset.inl: BitIterator::operator++, BitIterator::operator*", "include/NazaraUtils/Bitset.inl: FindNext, FindFirst"]}
{"id": "C136", "title": "Iterators meet the requirements of the category they declare", "statement": "Every expression the standard requires of the declared iterator category compiles and has the required type, std::iterator_traits works, and any expression over iterators computes what the same expression over pointers into an array computes.", "quantifier": "all five iterator classes; all expressions built from the iterator operators, all arrays, positions and offsets", "why_tests_cant": "Expressions that do not compile cannot be in a test, and the chains of operators are unboundedly many.", "anchors": ["include/NazaraUtils/EnumArray.hpp: EnumArrayKvIterator", "include/NazaraUtils/EnumArray.inl: EnumArrayKvIterator::operator+=, operator-=, operator+, operator-", "include/NazaraUtils/Bitset.hpp: BitIterator", "include/NazaraUtils/Flags.hpp: Flags::iterator", "include/NazaraUtils/MemoryPool.hpp: MemoryPoolIterator", "include/NazaraUtils/SparsePtr.hpp: SparsePtr", "include/NazaraUtils/SparsePtr.inl: std::iterator_traits"]}
{"id": "C137", "title": "Entries of a MemoryPool may use the pool", "statement": "Constructors and destructors of the entries of a pool may allocate and free entries of that pool: freeing the root of a tree of entries frees the tree, and Clear and the destructor destroy every object once.", "quantifier": "all pools reached by any history, all constructors and destructors given as sequences of Allocate and Free calls, any nesting depth, all ownership trees", "why_tests_cant": "The calls nest to any depth and interleave with the bookkeeping of the outer call; what goes wrong depends on the order of the indices of owner and owned.", "anchors": ["include/NazaraUtils/MemoryPool.inl: MemoryPool::Allocate", "include/NazaraUtils/MemoryPool.inl: MemoryPool::Free", "include/NazaraUtils/MemoryPool.inl: MemoryPool::Reset", "include/NazaraUtils/MemoryPool.inl: MemoryPool::Clear", "include/NazaraUtils/MemoryPool.inl: MemoryPool::~MemoryPool"]}
{"id": "C138", "title": "The constructors of Result initialise the side meant", "statement": "Ok(x) makes a value, Err(x) an error, an object of the value type a value, another Result a Result of the same side, and ErrorTag an error, whatever the types and the value category; nothing else is constructed.", "quantifier": "all value and error types built from classes, void and Result; all conversions between classes; all four value categories; all values", "why_tests_cant": "Overload resolution among seven constructors depends on the types and on the value category of the argument; nested Results are unboundedly many and much of what goes wrong does not compile.", "anchors": ["include/NazaraUtils/Result.hpp: Result", "include/NazaraUtils/Result.inl: Result::Result", "include/NazaraUtils/Result.inl: Ok", "include/NazaraUtils/Result.inl: Err"]}
{"id": "C139", "title": "NazaraOffsetOf is the offset of the member in the class named, and AccessByOffset keeps const", "statement": "NazaraOffsetOf(T, m) compiles for every non-static data member m of T, declared or inherited, and is the distance from the start of a T to m, as a constant; AccessByOffset gives exactly the reference or pointer asked for, at that distance, and never removes const.", "quantifier": "all class hierarchies without virtual bases, in any layout; all member names and member types; C++17 and C++20; all target types and base pointers", "why_tests_cant": "The macro depends on the class that declares the member, on deduction and on the qualifiers of the member; hierarchies are unboundedly many, and wrong offsets only show with a base that is not at the start.", "anchors": ["include/NazaraUtils/OffsetOf.hpp: NazaraOffsetOf", "include/NazaraUtils/OffsetOf.hpp: Detail::GetClassType", "include/NazaraUtils/OffsetOf.hpp: Detail::GetMemberType", "include/NazaraUtils/OffsetOf.hpp: Detail::OffsetOf", "include/NazaraUtils/Algorithm.inl: AccessByOffset"]}
{"id": "C140", "title": "Elements of a FixedVector or StackVector may use the vector while they are constructed and destroyed", "statement": "Constructors and destructors of elements may call emplace_back, pop_back, operator[], clear and resize of the vector holding them: every element added exists once, in order, and is destroyed once, or an assertion fails; no element is used outside its lifetime.", "quantifier": "all capacities and states of a vector using its inline storage; all behaviours of the constructors and destructors of elements; all nestings of calls", "why_tests_cant": "Calls nest to any depth, each in a state the outer calls have half changed; the failures depend on which element is being constructed or destroyed, and pass silently when the slot is reused.", "anchors": ["include/NazaraUtils/FixedVector.inl: FixedVector::emplace_back", "include/NazaraUtils/FixedVector.inl: FixedVector::pop_back", "include/NazaraUtils/FixedVector.inl: FixedVector::clear", "include/NazaraUtils/FixedVector.inl: FixedVector::resize", "include/NazaraUtils/StackVector.inl: StackVector::emplace_back", "include/NazaraUtils/StackVector.inl: StackVector::clear", "include/NazaraUtils/StackVector.inl: StackVector::resize"]}
{"id": "C141", "title": "What is declared constexpr can be used in constant expressions", "statement": "The classes of the library whose constructors are declared constexpr are literal types when what they hold is, and a call to a function declared constexpr with valid arguments is a constant expression in every supported standard.", "quantifier": "all types built from scalars, arrays, vectors, optionals, variants and user classes; all values and texts; C++17, C++20 and C++23; all hosts", "why_tests_cant": "Tests evaluate a few functions at compile time in one standard; a function template that is constexpr in name only compiles silently and is only rejected where a constant is required.", "anchors": ["include/NazaraUtils/ConstantEvaluated.hpp: NAZARA_CONSTEXPR20", "include/NazaraUtils/FixedVector.hpp: FixedVector", "include/NazaraUtils/Bitset.hpp: Bitset", "include/NazaraUtils/Bitset.hpp: Bitset::Bit", "include/NazaraUtils/Result.hpp: Result", "include/NazaraUtils/MovableValue.inl: MovableLiteral::operator=", "include/NazaraUtils/MathUtils.inl: NumberEquals", "include/NazaraUtils/MathUtils.inl: ByteSwapImpl", "include/NazaraUtils/Flags.hpp: Flags::iterator", "include/NazaraUtils/MemoryHelper.inl: PlacementNew"]}
{"id": "C142", "title": "Objects of a PrivateImpl may use handles while they are constructed and destroyed", "statement": "Constructors and destructors of implementation objects may call Emplace, Reset and the accessors of PrivateImpl handles, their own included: no object is used or deleted outside its lifetime, and every object created is destroyed once by the time the handles have ended.", "quantifier": "all numbers of handles; all behaviours of constructors and destructors, depending on the handle and the object; all programs of Emplace, Reset and accesses; all nestings", "why_tests_cant": "The failures need an object whose destructor reaches its own handle; calls nest to any depth and depend on the order of declaration of the handles.", "anchors": ["include/NazaraUtils/PrivateImpl.inl: PrivateImpl<T, 0>::Emplace", "include/NazaraUtils/PrivateImpl.inl: PrivateImpl<T, 0>::Reset", "include/NazaraUtils/PrivateImpl.inl: PrivateImpl<T, 0>::~PrivateImpl", "include/NazaraUtils/PrivateImpl.inl: PrivateImpl<T, 0>::HasValue"]}
{"id": "C143", "title": "A bitset written to a stream reads back as it was", "statement": "Bitsets written to a stream with operator<<, a space after each, and read back word by word through std::string are the bitsets written, whatever the width, fill character and adjustment of the stream.", "quantifier": "all block widths; all bitsets and sequences of bitsets; all stream widths, fill characters and adjustments", "why_tests_cant": "The text depends on the state of the stream, which other output leaves behind; tests print with default settings.", "anchors": ["include/NazaraUtils/Bitset.inl: operator<<(std::ostream&, const Bitset&)", "include/NazaraUtils/Bitset.inl: Bitset::ToString", "include/NazaraUtils/Bitset.inl: Bitset::Bitset(const std::string&)"]}
{"id": "C144", "title": "Within the capacity of a bitset nothing is allocated and no block moves", "statement": "The capacity of a Bitset is never below its size. Reserve(n) changes no bit and leaves a capacity of at least n, allocating exactly when the capacity was below n. Every other call that is not an assignment from a text, a number or a new bitset, or an exchange, keeps the blocks where they are when the new size is within the capacity, and otherwise puts them in memory no bitset used before.", "quantifier": "all block widths; all histories of calls on any number of bitsets; every way the standard library chooses capacities; all sizes", "why_tests_cant": "Whether a call reallocates is not visible in results; tests do not look at addresses, and the growth policy of one library hides calls that would allocate under another.", "anchors": ["include/NazaraUtils/Bitset.inl: Bitset::Reserve", "include/NazaraUtils/Bitset.inl: Bitset::GetCapacity", "include/NazaraUtils/Bitset.inl: Bitset::Resize", "include/NazaraUtils/Bitset.inl: Bitset::AppendBits", "include/NazaraUtils/Bitset.inl: Bitset::Write", "include/NazaraUtils/Bitset.inl: Bitset::PerformsAND", "include/NazaraUtils/Bitset.inl: Bitset::operator=(const std::string_view&)"]}
{"id": "C145", "title": "Elements of a vector before the position of an operation stay where they are, until a HybridVector leaves its inline storage for good", "statement": "An operation of FixedVector, HybridVector or StackVector on the inline storage neither reads nor writes the elements before its position: with anything in their place it does the same to the rest, so pointers and references to them stay valid and their values are kept. A HybridVector leaves its inline storage exactly at the first operation that asks for more than the capacity; from then on no object lives there, whatever operations follow, and all earlier pointers dangle.", "quantifier": "all element types; all capacities including 0; all vectors that histories of operations lead to; all operations and all prefixes; all contents put in place of the prefix", "why_tests_cant": "A reference kept across push_back usually still reads the old value even when the storage has moved or the element was moved and written back; tests compare values.", "anchors": ["include/NazaraUtils/FixedVector.inl: FixedVector::emplace", "include/NazaraUtils/FixedVector.inl: FixedVector::push_back", "include/NazaraUtils/FixedVector.inl: FixedVector::erase", "include/NazaraUtils/FixedVector.inl: FixedVector::resize", "include/NazaraUtils/FixedVector.inl: FixedVector::reserve", "include/NazaraUtils/FixedVector.inl: FixedVector::clear", "include/NazaraUtils/FixedVector.inl: FixedVector::CheckFallbackOnGrow", "include/NazaraUtils/FixedVector.inl: FixedVector::MoveStorageToFallback", "include/NazaraUtils/StackVector.inl: StackVector::emplace"]}
{"id": "C146", "title": "Pools can be moved and exchanged without their entries noticing", "statement": "In every program that constructs, uses, move-constructs, exchanges and ends MemoryPool variables, each pool is a row of slots: moving and exchanging pass on the rows whole, every entry keeping its index, its object and its address, the source of a move being an empty pool of the same block size that can be used again, and when the variables end every object has been destroyed.", "quantifier": "all entry types and sizes; all block sizes from 1; all programs over any number of pools; all addresses given by the allocator", "why_tests_cant": "Tests with one pool do not see what a move leaves behind; objects that are never destroyed fail no assertion.", "anchors": ["include/NazaraUtils/MemoryPool.hpp: MemoryPool::MemoryPool(MemoryPool&&)", "include/NazaraUtils/MemoryPool.hpp: MemoryPool::operator=(MemoryPool&&)", "include/NazaraUtils/MemoryPool.inl: MemoryPool::~MemoryPool", "include/NazaraUtils/MemoryPool.inl: MemoryPool::Clear", "include/NazaraUtils/MemoryPool.inl: MemoryPool::Allocate"]}
{"id": "C147", "title": "Emitting one signal from several threads", "statement": "Threads that emit signals whose slots do not change call every slot of every signal they emit once and in order, without data race, under every schedule; operator() is const.", "quantifier": "all numbers of threads, programs (sequences of emissions), numbers of slots, initial values of m_slotIterator and all schedules of the single accesses", "why_tests_cant": "Races depend on the schedule; a test that runs threads sees a handful of schedules, and usually harmless ones.", "anchors": ["include/NazaraUtils/Signal.inl: Signal::operator()(Args...) const", "include/NazaraUtils/Signal.hpp: mutable SlotListIndex m_slotIterator"]}
{"id": "C148", "title": "Giving back a pool entry twice", "statement": "Giving back, with Free(index, NoDestruction), an entry of a MemoryPool that is not allocated is refused by the assertion on the block's counter, or does no harm: later calls that keep to the contract still work.", "quantifier": "all block sizes, all histories of allocations, constructions, destructions, returns (also of entries that are not allocated) and Clear, and all object values", "why_tests_cant": "A test sees one double return in one state; whether it is noticed depends on what else the block holds, and its effects show many calls later.", "anchors": ["include/NazaraUtils/MemoryPool.inl: Allocate(DeferConstruct_t, index)", "include/NazaraUtils/MemoryPool.inl: Free(index, NoDestruction_t)", "include/NazaraUtils/MemoryPool.inl: Clear, Reset", "include/NazaraUtils/MemoryPool.inl: GetAllocatedEntryCount"]}
{"id": "C149", "title": "Giving back a pool entry twice, compiled without assertions", "statement": "Compiled without assertions, giving back with Free(index, NoDestruction) an entry of a MemoryPool that is not allocated does no harm: later calls that keep to the contract still work.", "quantifier": "all block sizes, all histories of allocations, constructions, destructions, returns (also of entries that are not allocated) and Clear, and all object values", "why_tests_cant": "The counter of a block wraps below zero without notice; what that breaks shows only when the block is full, cleared or iterated.", "anchors": ["include/NazaraUtils/MemoryPool.inl: Allocate(DeferConstruct_t, index)", "include/NazaraUtils/MemoryPool.inl: Free(index, NoDestruction_t)", "include/NazaraUtils/MemoryPool.inl: Clear, Reset", "include/NazaraUtils/MemoryPool.inl: GetAllocatedEntryCount, GetFreeEntryCount", "include/NazaraUtils/MemoryPool.inl: GetFirstAllocatedEntryFromBlock"]}
{"id": "C150", "title": "Slots are called in the order in which they were connected", "statement": "An emission calls the slots of a signal in the order in which they were connected.", "quantifier": "any number of signals and slots, all histories of connections, disconnections, Clear and emissions; the one-step statements for callbacks that do anything", "why_tests_cant": "Disconnect fills the gap with another slot; the order changes only when an old slot leaves, and the tests add up numbers, which no order can change.", "anchors": ["include/NazaraUtils/Signal.inl: Connect", "include/NazaraUtils/Signal.inl: Disconnect(const SlotPtr&)", "include/NazaraUtils/Signal.inl: Clear", "include/NazaraUtils/Signal.inl: operator()"]}
{"id": "C151", "title": "Expressions of bitsets obey the laws of Boolean algebra", "statement": "Two expressions made of &, |, ^ and ~ that are equal by the laws of Boolean algebra give bitsets that compare equal, and operands that compare equal may replace each other.", "quantifier": "all expressions of any depth, all bitsets of any sizes, all block widths", "why_tests_cant": "There are infinitely many laws and sizes; the tests compare a few results of single operators.", "anchors": ["include/NazaraUtils/Bitset.inl: operator~", "include/NazaraUtils/Bitset.inl: operator&, operator|, operator^ (free functions)", "include/NazaraUtils/Bitset.inl: PerformsAND, PerformsOR, PerformsXOR, PerformsNOT", "include/NazaraUtils/Bitset.inl: operator<<, operator>>"]}
{"id": "C152", "title": "Flags made from a number are a set of enumerators", "statement": "A Flags object made from a number holds the enumerators whose bits are set in it, and behaves as that set: comparison, iteration, Count and the operators depend on the enumerators alone.", "quantifier": "all enumerations with up to 64 values, all integers", "why_tests_cant": "The constructor takes any number; bits that belong to no enumerator are kept by some operators and dropped by others. The tests make flags from enumerators only.", "anchors": ["include/NazaraUtils/Flags.inl: Flags(BitField value)", "include/NazaraUtils/Flags.inl: operator~, operator^, operator&, operator|, operator==", "include/NazaraUtils/Flags.inl: begin, Count, iterator", "include/NazaraUtils/Flags.hpp: BitField, ValueMask"]}
{"id": "C153", "title": "std::swap exchanges two objects", "statement": "std::swap of two objects of a movable class of the library leaves each with what the other had, and nothing else happens: no object is lost, leaked or ended twice, and no connection changes.", "quantifier": "all pairs of objects of MovableLiteral, MovablePtr, MovableValue, Result, StackVector, StackArray, FixedVector, HybridVector, ConnectionGuard and Signal, in all states", "why_tests_cant": "std::swap composes a move construction, two move assignments and the end of the temporary, each of which leaves its source in a state of its own; the outcome depends on sizes, on where the elements are kept and on the order of the arguments. No test swaps anything but bitsets.", "anchors": ["include/NazaraUtils/MovableValue.inl, MovablePtr.inl: moves", "include/NazaraUtils/Result.hpp: defaulted moves", "include/NazaraUtils/StackVector.hpp, StackArray.hpp: defaulted moves, destructors", "include/NazaraUtils/FixedVector.inl: FixedVector(FixedVector&&), operator=(FixedVector&&)", "include/NazaraUtils/Signal.inl: Signal(Signal&&), operator=(Signal&&), ConnectionGuard::operator=(ConnectionGuard&&)"]}
{"id": "C154", "title": "A Connect that fails leaves everything as it was", "statement": "When memory runs out in Connect, the signal keeps its slots in their order and its place in a running emission, the caller keeps the function, and a connection or guard that was to be assigned keeps the slot it had.", "quantifier": "all signals, in the middle of emissions as well, all places where an allocation can fail, all guards", "why_tests_cant": "Allocation failures are not tested, and may happen at the copy of the function, at the slot, at the first std::vector and at its growth, each with other things done already.", "anchors": ["include/NazaraUtils/Signal.inl: Connect(const Callback&), Connect(Callback&&)", "include/NazaraUtils/Signal.inl: Connection::Connect, ConnectionGuard::Connect", "include/NazaraUtils/FixedVector.inl: emplace_back, CheckFallbackOnGrow, MoveStorageToFallback"]}
{"id": "C155", "title": "AppendBits appends the low bits of signed integers", "statement": "AppendBits of a signed integer appends exactly the requested number of low bits of its two's complement representation and leaves no bit set past the size.", "quantifier": "every bitset, every block width, every signed width and value, every number of bits up to the width of the type", "why_tests_cant": "The conversion of a negative value to a wider block extends its sign; whether the extension is masked depends on the widths, the place in the last block and the number of bits. The tests append unsigned values.", "anchors": ["include/NazaraUtils/Bitset.inl: AppendBits"]}
{"id": "C156", "title": "Shifts, reversal and counting obey the laws of bit strings", "statement": "Two shifts in a row are one shift by the sum; a shift there and back clears exactly the bits that fell off; reversal turns a left shift into a right shift; right shifts distribute over &, | and ^ whatever the sizes, left shifts for equal sizes; Count(a|b)+Count(a&b) = Count(a)+Count(b), Count(a^b)+2 Count(a&b) = Count(a)+Count(b), Count(~a) = size-Count(a), reversal keeps the count, a shift loses exactly the bits that fall off, and Intersects holds exactly when Count(a&b) is not 0.", "quantifier": "every block width, all bitsets of any sizes, all shift distances", "why_tests_cant": "The laws relate several operations, each of which has its own treatment of whole blocks and of the last partial block; the tests check single operations on chosen values.", "anchors": ["include/NazaraUtils/Bitset.inl: ShiftLeft", "include/NazaraUtils/Bitset.inl: ShiftRight", "include/NazaraUtils/Bitset.inl: Reverse", "include/NazaraUtils/Bitset.inl: Count", "include/NazaraUtils/Bitset.inl: Intersects", "include/NazaraUtils/Bitset.inl: operator&, operator|, operator^, operator~"]}
{"id": "C157", "title": "The functions for integers also work on bool", "statement": "With bool, which the templates accept as an integer type, the bit functions affect exactly the addressed bit, counting, comparing, powers and reversal give the result of the number 0 or 1, a bitset made from a bool gives it back, AppendBits appends the bool followed by zeros, and To<bool> gives the number the bits denote.", "quantifier": "every bool, every bit index that passes the assertion, every bitset and block width", "why_tests_cant": "A conversion to bool is a comparison with 0 and not a reduction modulo a power of two, and BitCount<bool> is 8; the tests do not instantiate the templates with bool.", "anchors": ["include/NazaraUtils/MathUtils.inl: SetBit, ClearBit, ToggleBit, TestBit, ReverseBits, CountBits, NumberEquals, IntegralPow, MultiplyAdd", "include/NazaraUtils/Bitset.inl: Bitset(T), To, AppendBits"]}
{"id": "C158", "title": "The bit functions of MathUtils agree with one another", "statement": "Reversing bits or bytes keeps the number of bits set and the two reversals commute; the first bit of the reversal is the last bit; a number is a power of two exactly when one bit is set and exactly when its first bit is its last; IntegralLog2 is the index of the last bit, IntegralLog2Pot of a power of two that of the first; RoundToPow2 and GetNearestPowerOfTwo agree, give a power of two and are idempotent; setting, clearing and toggling a bit change the count by that bit.", "quantifier": "every unsigned integer type, every value (rounding: values up to the highest power of two), every bit", "why_tests_cant": "The functions are implemented by unrelated means (builtins, tables, De Bruijn multiplication, loops, masks); the tests check each on chosen values and never one against the other.", "anchors": ["include/NazaraUtils/MathUtils.inl: CountBits, FindFirstBit, FindLastBit, ReverseBits, ByteSwap, IsPow2, IntegralLog2, IntegralLog2Pot, RoundToPow2, GetNearestPowerOfTwo, SetBit, ClearBit, ToggleBit"]}
{"id": "C159", "title": "The functions for integers refuse other types", "statement": "A call of a MathUtils function constrained to std::integral compiles for every integer type and for no floating point type or enumeration, so that no argument is given a meaning it does not have.", "quantifier": "every constrained function of one value, every kind of argument type, with and without standard concepts; Align: all offsets and alignments; IntegralLog2: all floats", "why_tests_cant": "Without concepts (C++17, the language of the build) the constraint is an unconstrained typename, and whether a call is refused depends on the operations in the body; tests cannot contain calls that do not compile and do not try those that should not.", "anchors": ["include/NazaraUtils/Concepts.hpp", "include/NazaraUtils/MathUtils.hpp: functions constrained with NAZARA_STD_CONCEPT_T(std::integral)", "include/NazaraUtils/MathUtils.inl: Align, IntegralLog2, IntegralLog2Pot", "xmake.lua: set_languages"]}
