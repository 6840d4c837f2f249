#!/usr/bin/env python3
"""Regenerates /verif/properties.jsonl from the table below (one property per entry)."""
import json, os
I = "include/NazaraUtils/"
P = []
def p(id, title, statement, quantifier, why, anchors):
    P.append(dict(id=id, title=title, statement=statement, quantifier=quantifier,
                  why_tests_cant=why, anchors=anchors))

# ---------------------------------------------------------------- Bitset
p("C01", "Bitset behaves like a sequence of booleans under any history of point and whole-set writes",
  "After any sequence of construction, Set/Reset (one bit or all), Flip, Resize, SetBlock-free clearing, Test(i) returns the value last given to bit i, GetSize() is the last size, and a call whose index is out of range is the only one that asserts; no bit other than the addressed one changes.",
  "every block width (8/16/32/64 bits), every finite sequence of operations with arbitrary arguments, every bit index",
  "The state space is all bit contents times all sizes times all histories; block boundaries and partially used last blocks only show up for particular size/index/width combinations.",
  [I+"Bitset.inl: Bitset::Set, Bitset::Reset, Bitset::Flip, Bitset::Resize, Bitset::Test, Bitset::Clear, Bitset::Bitset"])
p("C02", "Bitset never leaks stale bits past its size",
  "After any sequence of operations of C01 (plus shifts, logical operations, reversal and unbounded writes), the storage bits at positions >= GetSize() are zero and the number of storage blocks is exactly the number needed for GetSize() bits, so Count, ==, To, TestAll/TestAny and a later growth never see a stale bit.",
  "every history of operations, every block width",
  "Stale high bits are invisible to Test and only surface after a later Resize or comparison; a test must guess the exact pair of operations.",
  [I+"Bitset.inl: Bitset::ResetExtraBits, Bitset::GetLastBlockMask, Bitset::Resize, Bitset::ShiftLeft, Bitset::PerformsNOT"])
p("C03", "Bitset::Resize keeps the common prefix and fills the rest",
  "Resize(n, v) leaves every bit below min(old size, n) unchanged, sets every new bit to v and makes GetSize() = n; shrinking then growing again with v=false yields zeros in the re-grown part.",
  "every old size and content, every new size, both fill values, every block width",
  "Depends on the interaction of old partial block, new partial block and fill value for all sizes.",
  [I+"Bitset.inl: Bitset::Resize"])
p("C04", "Bitset shifts move every bit by exactly the requested amount",
  "After ShiftLeft(k) bit i equals the old bit i-k (false when i<k); after ShiftRight(k) bit i equals the old bit i+k (false past the end); the size is unchanged and bits pushed past either end are lost, for every k including 0, multiples of the block width and k >= GetSize(). operator<< / >> return that result without touching the operand.",
  "every bitset, every shift amount, every block width",
  "The in-place block algorithm has four regimes (k=0, k>=size, multiple of block, general) and aliasing between read and written blocks; all k and all sizes are needed.",
  [I+"Bitset.inl: Bitset::ShiftLeft, Bitset::ShiftRight, Bitset::operator<<, Bitset::operator>>"])
p("C05", "Bitset AND/OR/XOR/NOT are pointwise, also between different sizes and when operands alias the destination",
  "The result of &, |, ^ (and &=, |=, ^=, PerformsAND/OR/XOR with the destination being one or both of the operands) has the larger of the two sizes and bit i is the boolean operation of the operands' bits i, a missing bit counting as false; ~ negates every bit and keeps the size. Operands that are not the destination are unchanged.",
  "every pair of bitsets (any sizes), every aliasing pattern between destination and operands, every block width",
  "Aliasing plus different block counts plus the unused tail: too many shape combinations, and the order of resize and reads matters.",
  [I+"Bitset.inl: Bitset::PerformsAND, Bitset::PerformsOR, Bitset::PerformsXOR, Bitset::PerformsNOT, Bitset::operator&=, Bitset::operator|=, Bitset::operator^=, Bitset::operator~"])
p("C06", "Iterating over set bits enumerates exactly the set positions, in increasing order, once each",
  "FindFirst returns the least set position or npos when none; FindNext(i) returns the least set position greater than i or npos; consequently IterBits() with prefix increment visits exactly the positions whose Test is true, in strictly increasing order, and terminates.",
  "every bitset, every starting position, every block width",
  "Needs every pattern of empty blocks and partial blocks; a test samples a handful of masks.",
  [I+"Bitset.inl: Bitset::FindFirst, Bitset::FindNext, Bitset::FindFirstFrom, Bitset::BitIterator"])
p("C07", "Bitset queries Count, TestAll, TestAny, TestNone and Intersects agree with the bits",
  "Count() is the number of true bits, TestAll() holds iff all bits are true, TestAny() iff some bit is true, TestNone() iff none is, and a.Intersects(b) iff some position is true in both.",
  "every bitset or pair of bitsets",
  "They work block-wise and rely on the unused tail bits being zero in every reachable state.",
  [I+"Bitset.inl: Bitset::Count, Bitset::TestAll, Bitset::TestAny, Bitset::TestNone, Bitset::Intersects"])
p("C08", "Bitset::Reverse mirrors the sequence",
  "After Reverse() bit i is the old bit size-1-i for every i, and reversing twice restores the bitset.",
  "every bitset", "All sizes and contents, including odd sizes and sizes across several blocks.",
  [I+"Bitset.inl: Bitset::Reverse"])
p("C09", "Bitset string conversion round-trips",
  "ToString() of a bitset built from a string of '0'/'1' returns the same string, and building a bitset from b.ToString() gives a bitset with the same size and bits; any other character makes construction fail an assertion.",
  "every string, every bitset", "All strings of all lengths.",
  [I+"Bitset.inl: Bitset::Bitset(const char*, std::size_t), Bitset::ToString"])
p("C10", "Bitset integer conversion round-trips",
  "For every unsigned integer type T and value x, Bitset(x).To<T>() == x whatever the block width; To<T>() equals the sum of 2^i over true bits i and asserts exactly when the bitset has more bits than T.",
  "every value of every unsigned width 8..64 against every block width 8..64",
  "2^64 values times width combinations; narrow-block and wide-block paths differ.",
  [I+"Bitset.inl: Bitset::Bitset(T), Bitset::To"])
p("C11", "AppendBits appends exactly the bitCount low bits of its argument",
  "After AppendBits(v, n) the size grew by n, the old bits are unchanged, the new bit number k is bit k of v for k<n, and nothing else becomes observable (Count, ==, later growth).",
  "every bitset, every unsigned argument type and value, every n, every block width",
  "The defect needs an unaligned current size together with set bits above n, or an append ending exactly on a 32/64-bit block boundary.",
  [I+"Bitset.inl: Bitset::AppendBits"])
p("C12", "Reading a byte buffer in chunks equals reading it at once",
  "Write(ptr, n) appends the first n bits of the buffer (bit k of the stream is bit k mod 8 of byte k / 8), the returned sequence designates bit n of the stream, continuing from it with any split n = n1+...+nk gives the same bitset, and no byte beyond the last needed one is read; n = 0 reads nothing and returns the same position.",
  "every buffer, every list of chunk lengths, every block width",
  "All splits of all lengths, with partial bytes at both ends.",
  [I+"Bitset.inl: Bitset::Write, Bitset::FromPointer"])
p("C13", "Bitset equality is equality of the denoted sets of positions",
  "a == b iff for every position (missing positions counting as false) the bits agree; == is an equivalence relation and != is its negation.",
  "every pair (and triple) of bitsets", "All pairs of contents of possibly different sizes.",
  [I+"Bitset.inl: operator==, operator!="])
p("C14", "Bitset ordering is a strict weak order consistent with ==",
  "operator< compares bitsets as binary numbers: exactly one of a<b, a==b, b<a holds, < is transitive, and no comparison reads outside the storage.",
  "every pair and triple of bitsets",
  "Asymmetry and totality quantify over all pairs; a test on a few ordered samples passes even when two bitsets are both less than each other.",
  [I+"Bitset.inl: operator<, operator<=, operator>, operator>="])
p("C15", "Unbounded accessors make a bitset act as an infinite bit string",
  "UnboundedTest(i) is false beyond the size; UnboundedSet(i,true) makes exactly bit i true, growing to i+1 only when needed and filling with false; UnboundedSet(i,false)/UnboundedReset(i) never change the size nor any other bit.",
  "every bitset, every index, every history of unbounded writes", "Unbounded index range and histories.",
  [I+"Bitset.inl: Bitset::UnboundedSet, Bitset::UnboundedReset, Bitset::UnboundedTest"])
p("C16", "Bit iterator postfix increment returns the old position and advances the iterator",
  "For an iterator it over set bits, *it++ yields the current position and leaves it at the next set position, as the input-iterator category it declares requires.",
  "every bitset, every iterator position", "Universally quantified over bitsets; the library's tests only use range-for (prefix).",
  [I+"Bitset.inl: Bitset::BitIterator::operator++(int)"])
p("C17", "A moved-from Bitset is still usable",
  "After moving from a bitset (construction or assignment), the source is in a valid state: GetSize() agrees with its storage, and calling Test/Set/Resize within GetSize() never accesses storage out of range.",
  "every source bitset, every later operation", "Depends on the content at the time of the move and on what is called afterwards.",
  [I+"Bitset.hpp: Bitset(Bitset&&), operator=(Bitset&&)"])
p("C18", "Bit proxies write through to exactly one bit",
  "b[i] = v, |=, &=, ^=, -=, Flip, Set, Reset on a bit proxy change only bit i, to the documented boolean combination, and reading the proxy gives Test(i).",
  "every bitset, index, operand", "All block widths, indices and contents.",
  [I+"Bitset.inl: Bitset::Bit"])
# ---------------------------------------------------------------- MathUtils
p("C19", "CountBits is the population count on both the run-time and the constant-evaluation path",
  "For every unsigned value CountBits(v) is the number of one bits on both paths; for negative values of narrow signed types both paths agree.",
  "every value of every integer type", "2^64 inputs; the two paths are selected by the compiler, not by the input.",
  [I+"MathUtils.inl: CountBits"])
p("C20", "FindFirstBit / FindLastBit give one plus the index of the lowest / highest set bit, zero for zero, on both paths",
  "FindFirstBit(v)=0 iff v=0, otherwise bit FindFirstBit(v)-1 is set and all lower ones clear; symmetrically for FindLastBit; run-time and constant-evaluation paths agree.",
  "every value of every unsigned integer type (and the signed narrow types for agreement)", "2^64 inputs; De Bruijn tables are only right for all 32/64 powers.",
  [I+"MathUtils.inl: FindFirstBit, FindLastBit, Detail::IntegralLog2Pot"])
p("C21", "IntegralLog2 is the floor of the base-2 logarithm",
  "IntegralLog2(v) = floor(log2 v) for v>0 and 0 for v=0, for every integer type (a negative argument gives the top bit index of its 32- or 64-bit pattern).",
  "every value of every integer type", "The 64-bit variant fails only on a 2^32-wide band out of 2^64 values.",
  [I+"MathUtils.inl: IntegralLog2, Detail::IntegralLog2"])
p("C22", "IntegralLog2Pot inverts powers of two",
  "IntegralLog2Pot(2^k) = k for every power of two of every integer type, and IntegralLog2Pot(0) = 0.",
  "every power of two of every width", "Finite but easy to sample badly; needed as a lemma for C20.",
  [I+"MathUtils.inl: IntegralLog2Pot, Detail::IntegralLog2Pot"])
p("C23", "Align and AlignPow2 round up to the least multiple",
  "For a positive alignment and no wrap-around, Align(o,a) is the least multiple of a that is >= o; for a power-of-two alignment AlignPow2 equals Align; for signed negative offsets both still agree and round up.",
  "every offset and alignment of every integer type", "All pairs of 64-bit values; overflow and negative offsets are corners.",
  [I+"MathUtils.inl: Align, AlignPow2"])
p("C24", "RoundToPow2 and GetNearestPowerOfTwo return the least power of two not below the argument",
  "For every value whose rounded-up power of two is representable, both return that power; GetNearestPowerOfTwo terminates for every input; RoundToPow2(x) is a power of two.",
  "every value of every integer type, before and since C++20", "Includes values above the top power of two and zero, where termination/overflow matter.",
  [I+"MathUtils.inl: RoundToPow2, GetNearestPowerOfTwo, IsPow2"])
p("C25", "ByteSwap reverses the byte order and is an involution; endianness conversions round-trip",
  "Byte k of ByteSwap(v) is byte n-1-k of v for every width; ByteSwap(ByteSwap(v)) = v; HostToBigEndian stores the most significant byte first on either kind of host; BigEndianToHost(HostToBigEndian(v)) = v and same for little endian; SwapBytes on a buffer reverses it.",
  "every value of every integer type, negative ones included; every buffer for SwapBytes; both host endiannesses", "All values; the host endianness of the test machine is fixed.",
  [I+"MathUtils.inl: ByteSwap, Detail::ByteSwapImpl, SwapBytes", I+"Endianness.inl: BigEndianToHost, LittleEndianToHost, HostToBigEndian, HostToLittleEndian"])
p("C26", "ReverseBits mirrors the bits and is an involution",
  "Bit i of ReverseBits(v) is bit w-1-i of v for every i, hence applying it twice gives v back, for every integer type, negative values included.",
  "every value of every width", "256-entry table and all 64-bit values.",
  [I+"MathUtils.inl: ReverseBits, Detail::s_BitReverseTable256"])
p("C27", "SetBit/ClearBit/ToggleBit/TestBit affect exactly the addressed bit",
  "For in-range bit indices each changes (or reads) exactly that bit and leaves the others; an out-of-range index asserts.",
  "every value, every bit index, every integer type, signed or not", "All value/index pairs.",
  [I+"MathUtils.inl: SetBit, ClearBit, ToggleBit, TestBit"])
p("C28", "Clamp and Approach stay between their bounds and converge",
  "Clamp(v,lo,hi) with lo<=hi is the closest value to v in [lo,hi]; Approach moves towards the objective by at most increment, never past it, and reaches it after finitely many steps when increment>0 - for every integer type including unsigned ones.",
  "every value triple of signed/unsigned types, every number of steps", "All triples; wrap-around of unsigned subtraction is a corner.",
  [I+"MathUtils.inl: Clamp, Approach"])
p("C29", "NumberEquals is 'absolute difference at most max' for all integer types",
  "For every integer type and non-negative maxDifference, NumberEquals(a,b,d) holds iff |a-b| <= d mathematically, even when a-b overflows.",
  "every triple of every integer type", "All triples, including extremes of signed types; narrow signed types are promoted.",
  [I+"MathUtils.inl: NumberEquals, Detail::NumberEquals"])
p("C30", "ArithmeticRightShift is floor division by a power of two; IntegralPow is exact modulo the type",
  "ArithmeticRightShift(v,s) = floor(v / 2^s) for 0<=s<width, in both the C++20 and the pre-C++20 implementation (given an implementation-defined shift that is either arithmetic or logical); IntegralPow(b,e) = b^e modulo 2^width for unsigned types.",
  "every value, shift, base and exponent", "All values; the pre-C++20 branch depends on the compiler's shift.",
  [I+"MathUtils.inl: ArithmeticRightShift, IntegralPow"])
# ---------------------------------------------------------------- FixedVector / HybridVector
p("C31", "FixedVector behaves like a std::vector bounded by its capacity",
  "After any sequence of push_back, emplace_back, emplace/insert at a position, erase of one or of a range, pop_back, resize, clear, the contents and size equal those of a plain sequence given the same operations; an operation that would exceed the capacity, or an out-of-range position, asserts and nothing else does.",
  "every capacity, every finite operation sequence, every element values",
  "Unbounded histories; element shifting bugs appear only for particular position/size pairs.",
  [I+"FixedVector.inl: FixedVector::emplace, emplace_back, insert, erase, push_back, pop_back, resize, clear"])
p("C32", "Every element object is constructed and destroyed exactly once",
  "In any history of the operations of C31 followed by destruction, storage is never constructed over a live object, never destroyed twice, never read when not live, and when the vector is destroyed no live object remains.",
  "every capacity, every history", "Lifetime errors do not change observable values for trivial types; all histories must be considered.",
  [I+"FixedVector.inl: FixedVector::emplace, erase, resize, clear, ~FixedVector", I+"MemoryHelper.inl: PlacementNew, PlacementDestroy"])
p("C33", "HybridVector spilling to its fallback is unobservable",
  "For a HybridVector, in any history of the operations of C31, contents and size are those of an unbounded sequence, whatever the inline capacity; at the moment of the spill every element is carried over in order and no element is lost, duplicated or leaked.",
  "every inline capacity, every history", "The spill happens once, at a history-dependent moment, during any of six operations.",
  [I+"FixedVector.inl: CheckFallbackOnGrow, MoveStorageToFallback, EmplaceBackInFallback"])
p("C34", "Copying a FixedVector/HybridVector yields an equal independent vector and loses nothing",
  "After b = a or construction of b from a: b's contents equal a's, a is unchanged, the former elements of b have been destroyed, also when a and b are the same object or when either one uses its fallback storage.",
  "every pair of source/target states (inline or spilled), self-assignment", "Four storage-state combinations times self-assignment, with a leak invisible to value checks.",
  [I+"FixedVector.inl: FixedVector::operator=(const FixedVector&), FixedVector(const FixedVector&)"])
p("C35", "Moving a FixedVector/HybridVector transfers the contents and loses nothing",
  "After b = std::move(a) or construction: b's contents equal a's old contents, b's former elements have been destroyed exactly once, a is in a state where every operation is still memory-safe.",
  "every pair of source/target states", "Same state combinations as C34.",
  [I+"FixedVector.inl: FixedVector::operator=(FixedVector&&), FixedVector(FixedVector&&)"])
p("C36", "Inserting or pushing an element of the vector itself is safe",
  "v.push_back(v[i]) and v.insert(pos, v[i]) insert the value v[i] had before the call, as std::vector guarantees, also when the call spills a HybridVector.",
  "every vector state, position and aliased index", "Needs the aliased index to be at or after the insertion point, or a spill at exactly that call.",
  [I+"FixedVector.inl: push_back, insert, emplace", I+"StackVector.inl: push_back, insert, emplace"])
p("C37", "push_back of an rvalue moves the element",
  "push_back(T&&) moves from its argument both in inline storage and once spilled to the fallback.",
  "every vector state", "Only the spilled state is wrong and values look identical.",
  [I+"FixedVector.inl: push_back(T&&)"])
p("C38", "StackVector behaves like a bounded std::vector with correct lifetimes",
  "Same as C31 and C32 for StackVector over caller-provided memory of any capacity.",
  "every capacity, every history", "Unbounded histories.",
  [I+"StackVector.inl: emplace, emplace_back, erase, push_back, pop_back, resize, clear, ~StackVector"])
p("C39", "A moved-from StackVector (or StackArray) can be destroyed safely",
  "After moving a StackVector/StackArray, destroying both objects destroys every element exactly once and touches no other memory.",
  "every size", "The bad access needs a moved-from vector with at least two elements of a non-trivial type.",
  [I+"StackVector.hpp: StackVector(StackVector&&)", I+"StackArray.hpp: StackArray(StackArray&&)", I+"MovablePtr.inl"])
# ---------------------------------------------------------------- MemoryPool
p("C40", "MemoryPool never hands out an entry that is still allocated",
  "In any history of Allocate, Free and Clear, the index and address returned by Allocate differ from those of every entry currently allocated, and Allocate always succeeds (growing by one block only when every entry is used).",
  "every block size >= 1, every history of Allocate/Free/Clear", "Double hand-out needs a particular allocation/free pattern across blocks; unbounded histories.",
  [I+"MemoryPool.inl: Allocate, Free, AllocateBlock, Clear"])
p("C41", "MemoryPool counters and reuse",
  "GetAllocatedEntryCount() equals the number of outstanding allocations, GetFreeEntryCount() = blocks*blockSize - outstanding, freed entries become available again before a new block is added, and Allocate reuses the lowest free index of the first block having room.",
  "every history", "Unbounded histories.",
  [I+"MemoryPool.inl: GetAllocatedEntryCount, GetFreeEntryCount, Allocate, Free"])
p("C42", "MemoryPool indices and addresses correspond",
  "RetrieveFromIndex(i) of a returned index is the returned address, RetrieveEntryIndex(p) of a returned pointer is its index, both stay valid until freed whatever other allocations happen, and RetrieveFromIndex of an unallocated index is never a live object of someone else.",
  "every history; every block size; every placement of the blocks in memory", "Pointer stability and inverse mapping for all states.",
  [I+"MemoryPool.inl: RetrieveFromIndex, RetrieveEntryIndex, GetAllocatedPointer"])
p("C43", "MemoryPool::RetrieveEntryIndex is right for over-aligned pools",
  "The correspondence of C42 also holds when the pool's Alignment parameter is larger than the element size requires.",
  "every element size, alignment, block size", "Only differs when alignment padding makes the stride larger than sizeof(T).",
  [I+"MemoryPool.inl: RetrieveEntryIndex"])
p("C44", "Iterating a MemoryPool visits exactly the allocated entries in index order",
  "begin()..end() visits every outstanding allocation exactly once, in increasing index order, skipping free entries and empty blocks.",
  "every history", "All patterns of holes and empty blocks.",
  [I+"MemoryPool.inl: begin, end, GetFirstAllocatedEntryFromBlock, GetNextAllocatedEntry, MemoryPoolIterator::operator++"])
p("C45", "MemoryPool::Reset frees everything and restores full capacity",
  "After Reset() no entry is allocated, every object has been destroyed exactly once, and the pool again serves blocks*blockSize allocations without growing, each iteration visiting only entries allocated since.",
  "every pool state before Reset and every history after", "The pool looks empty right after Reset; the damage appears only in later allocations, iterations or a second Reset.",
  [I+"MemoryPool.inl: Reset"])
p("C46", "Objects in a MemoryPool are destroyed exactly once",
  "Free(index) destroys exactly that object, destruction of the pool (or Clear) destroys exactly the remaining ones; NoDestruction never destroys.",
  "every history of Allocate/Free/Clear", "Lifetime accounting over all histories.",
  [I+"MemoryPool.inl: Free, Reset, Clear, ~MemoryPool"])
# ---------------------------------------------------------------- Signal
p("C47", "Emitting a signal calls every connected slot exactly once",
  "For callbacks that do not touch the signal, emission calls each connected slot exactly once and each disconnected slot not at all, after any history of Connect/Disconnect.",
  "every history of connections and disconnections", "Swap-with-last removal permutes slots; all histories matter.",
  [I+"Signal.inl: Signal::operator(), Signal::Connect, Signal::Disconnect"])
p("C48", "Disconnecting slots from inside a callback neither skips nor repeats other slots",
  "When callbacks disconnect arbitrary slots (themselves, already called ones, not yet called ones) during emission, each slot that stays connected for the whole emission is called exactly once, and a slot disconnected before its turn is not called.",
  "every set of slots, every assignment of disconnection lists to callbacks", "Exponentially many disconnect schedules; the index arithmetic has three cases.",
  [I+"Signal.inl: Signal::Disconnect, Signal::operator()"])
p("C49", "Connecting slots from inside a callback does not disturb the current emission",
  "When callbacks also connect new slots, slots connected for the whole emission are still called exactly once.",
  "every schedule of connects and disconnects inside callbacks", "Only the first slot disconnecting itself and then connecting breaks it.",
  [I+"Signal.inl: Signal::Connect, Signal::Disconnect, Signal::operator()"])
p("C50", "Connections report and end exactly their own slot",
  "IsConnected() of a connection is true iff its slot has been connected and not yet removed (by Disconnect, Clear or destruction of the signal); Disconnect removes exactly that slot and is idempotent; other connections are unaffected; a ConnectionGuard disconnects on destruction, re-assignment and move as documented.",
  "every history over any number of connections and guards", "Index bookkeeping after swap-with-last removal must be right in every history.",
  [I+"Signal.inl: Connection::Disconnect, Connection::IsConnected, ConnectionGuard"])
p("C51", "Nested emission calls every slot",
  "If a callback emits the same signal again, the outer emission still calls every slot connected throughout.",
  "every slot position and slot count", "Needs re-entrancy at a non-last slot.",
  [I+"Signal.inl: Signal::operator()"])
p("C52", "Moving a Signal transfers the slots and leaves an empty signal",
  "After signal b = std::move(a), emitting b calls a's former slots, connections to them still work and target b, and emitting or connecting on a is safe and calls nothing.",
  "every number of slots in source and target", "Depends on whether each side holds one slot (inline) or several (spilled).",
  [I+"Signal.inl: Signal::Signal(Signal&&), Signal::operator=(Signal&&)"])
# ---------------------------------------------------------------- Hash
p("C53", "CRC32 computes the standard reflected CRC-32 for every byte string",
  "CRC32 over bytes equals the bit-by-bit CRC-32 (polynomial 0xEDB88320, initial and final complement) of those bytes, identically through the pointer/size, string_view and C-string overloads.",
  "every byte string of every length", "All strings; table-driven vs bitwise equivalence; char signedness.",
  [I+"Hash.inl: CRC32, Detail::GenerateCRC32Table"])
p("C54", "FNV1a32/FNV1a64 give the same hash for the same bytes through every overload",
  "Hashing the bytes of a text through the string_view overload, the C-string overload and the (UInt8*, size) overload gives the same value, equal to FNV-1a of the byte sequence.",
  "every byte string", "Only strings with bytes >= 0x80 differ on platforms with signed char.",
  [I+"Hash.inl: FNV1a32, FNV1a64"])
p("C55", "HashCombine is lossless in the combined value",
  "For any seed, two values with different hashes combined into that seed give different results.",
  "every seed and every pair of hash values", "2^192 combinations.",
  [I+"Hash.inl: HashCombine"])
# ---------------------------------------------------------------- Flags
p("C56", "Flags is a set of enumerators",
  "For an enum of up to 32 values, Test/Set/Clear/|/&/^/~ on Flags compute membership, union, difference, intersection, symmetric difference and complement within the enum's range; Test(f) holds iff every flag of f is set.",
  "every enum size up to 32, every flag sets", "All pairs of flag sets for all enum sizes; integer promotion of narrow bitfields.",
  [I+"Flags.inl: Flags::Test, Set, Clear, operator&, operator|, operator^, operator~"])
p("C57", "Iterating Flags yields exactly the set enumerators in increasing order, Count of them",
  "begin()..end() yields each set enumerator once in increasing order and Count() is their number.",
  "every flag set", "All flag sets.",
  [I+"Flags.inl: Flags::iterator, Flags::Count"])
p("C58", "Flags works for enums with more than 32 values",
  "All of C56 holds for enums of 33 to 64 values (the class selects a 64-bit field for them).",
  "every enum size 33..64, every enumerator", "Needs an enum with more than 32 enumerators.",
  [I+"Flags.inl: Flags::GetFlagValue", I+"Flags.hpp: Flags::ValueMask"])
# ---------------------------------------------------------------- SparsePtr
p("C59", "SparsePtr arithmetic obeys the random access iterator laws",
  "p[i] designates base + i*stride; (p+a)+b = p+(a+b); (p+n)-n = p; (p+n)-p = n; ++/-- are inverse; for every stride and every index type, signed or unsigned.",
  "every base, stride (positive or negative) and index of every integer type", "Negative strides combined with unsigned index types; 32-bit overflow of index*stride.",
  [I+"SparsePtr.inl: operator[], operator+, operator-, operator+=, operator-=, operator++, operator--"])
p("C60", "SparsePtr ordering matches iteration order",
  "For stride > 0, p < q iff q-p > 0 within one strided sequence; the comparison is a total order on addresses.",
  "every pair of pointers of the same sequence", "All strides.",
  [I+"SparsePtr.inl: operator<, operator==, operator-"])
# ---------------------------------------------------------------- Result
p("C61", "Result is exactly one of value or error, and accessors never return the wrong side",
  "Exactly one of IsOk/IsErr holds; GetValue returns the stored value iff Ok and throws otherwise, GetError symmetric; GetValueOr returns the value or the default; Expect throws iff error; conversion between Result types preserves the side and the payload.",
  "every value/error payload, every accessor", "All payloads and types.",
  [I+"Result.inl: Result::GetValue, GetError, GetValueOr, Expect, IsOk, IsErr"])
p("C62", "Result::Map applies the function once on success and never on error, and obeys the functor laws",
  "Map(f) on Ok(v) is Ok(f(v)) with f called exactly once; on Err(e) it is Err(e) with f not called; Map(id) = id and Map(g)(Map(f) r) = Map(g.f) r, for void and non-void values.",
  "every result, every functions", "Quantifies over functions.",
  [I+"Result.inl: Result::Map"])
p("C63", "NAZARA_TRY propagates the first error and runs nothing after it",
  "In a sequence of NAZARA_TRY / NAZARA_TRY_VALUE steps, the result is the first failing step's error, no later step runs, and when all succeed the final result is returned.",
  "every sequence of steps and outcomes", "All sequences.",
  [I+"Result.hpp: NAZARA_TRY, NAZARA_TRY_VALUE"])
p("C64", "Building a Result from an lvalue error copies it",
  "Err(e) with an lvalue e leaves e unchanged, for Result<V,E> and for Result<void,E>.",
  "every error value", "Moved-from-ness of the caller's variable is not looked at by tests.",
  [I+"Result.inl: Result<void, E>::Result(ResultError<T>), Err"])
# ---------------------------------------------------------------- Movable
p("C65", "MovableLiteral/MovablePtr: the source of a move no longer carries the value",
  "After moving from a MovableLiteral (resp. MovablePtr) by construction, the source holds the default value (resp. null) and the destination the old value; along any chain of moves from one original a given non-default value is held by exactly one object.",
  "every history of constructions, copies excluded, and moves between any number of objects", "Histories of moves, including move assignment which swaps.",
  [I+"MovableValue.inl: MovableLiteral", I+"MovablePtr.inl: MovablePtr"])
p("C66", "Assigning a MovableValue from an lvalue copies",
  "mv = x with an lvalue x (a T or another MovableValue) leaves x unchanged.",
  "every value", "Overload resolution picks a forwarding overload for non-const lvalues.",
  [I+"MovableValue.inl: MovableValue::operator=(U&&)"])
# ---------------------------------------------------------------- CallOnExit / PrivateImpl
p("C67", "CallOnExit runs its functor exactly once unless reset",
  "In any history of Reset/CallAndReset followed by destruction, the functor runs exactly once if Reset never came first, and not at all otherwise; it is never run twice.",
  "every history", "All sequences.",
  [I+"CallOnExit.inl: ~CallOnExit, CallAndReset, Reset"])
p("C68", "CallOnExit move assignment transfers the duty to call",
  "After a = std::move(b), b's functor runs exactly once in total and a's former functor is not silently dropped.",
  "every pair of states", "The double call occurs only at the second destructor.",
  [I+"CallOnExit.hpp: CallOnExit::operator=(CallOnExit&&)"])
p("C69", "PrivateImpl owns its object: no leak, no double free",
  "In any history of construction, copy, move, Emplace, Reset, assignment and destruction over any number of handles, every implementation object is destroyed exactly once and no handle refers to a destroyed object - including self-assignment and copying from an empty handle.",
  "every history over any number of handles", "Ownership errors need particular sequences (self-assignment, empty source).",
  [I+"PrivateImpl.inl: PrivateImpl"])
# ---------------------------------------------------------------- EnumArray, TypeList, TypeName, SafeCast
p("C70", "EnumArray key/value iteration visits each enumerator once with its own value",
  "iter_kv() yields the pairs (e, array[e]) for all enumerators in increasing order, each once; writing through the iterator at key e changes exactly array[e].",
  "every enum size, every array", "All sizes.",
  [I+"EnumArray.inl: EnumArrayKvIterator"])
p("C71", "TypeList algebra",
  "TypeListFind returns the first index of a type or npos; TypeListHas iff present; TypeListRemove removes exactly all occurrences and keeps order; TypeListUnique keeps first occurrences in order with no duplicate; Append/Prepend/Concat/At/Transform are list append/prepend/concatenation/indexing/map; TypeListApply calls in order once per element.",
  "every list of types", "Meta-programs are tested on a few lists only.",
  [I+"TypeList.inl"])
p("C72", "TypeName returns the name of the type",
  "For a compiler-provided signature text containing the type name X, TypeName yields exactly X, whatever X's length.",
  "every type name text", "Fails only for long names.",
  [I+"TypeName.inl: NzDetailTypeName"])
p("C73", "SafeCast fails its debug assertion exactly when the value is not representable",
  "For integer source and destination types, SafeCast<To>(v) asserts (in debug) iff v is not representable in To, for prvalues and for variables alike; otherwise it returns v unchanged.",
  "every pair of integer types, every value, both value categories", "64 type pairs times all values; checks are silently skipped for some.",
  [I+"Algorithm.inl: SafeCast, SafeCaster"])
p("C74", "FunctionRef forwards to the referenced callable",
  "Calling a FunctionRef calls the referenced callable exactly once with the given arguments, with its current state, and copies of the FunctionRef refer to the same callable; bool conversion is false iff built from nullptr.",
  "every callable and argument, every history of copies and calls", "Aliasing between copies and stateful callables.",
  [I+"FunctionRef.inl: FunctionRef"])
p("C75", "FixedBitset and HybridBitset capacity is sufficient",
  "A FixedBitset<Block, Capacity> can hold Capacity bits: the number of blocks needed for any size up to Capacity never exceeds its storage capacity.",
  "every capacity, every block width", "All capacities and widths.",
  [I+"Bitset.hpp: FixedBitset, HybridBitset"])

p("C76", "StackArray constructs and destroys each element exactly once, with checked access",
  "Constructing a StackArray of n elements constructs exactly the first n cells of the given memory, operator[] and back() assert out of range and otherwise designate the element, fill and element assignment change exactly the elements, front() of an empty array is refused, and destruction destroys each element once.",
  "every size, every memory, every element value", "Lifetimes are invisible for trivial types; every size must be considered.",
  [I+"StackArray.inl: StackArray, ~StackArray, fill, front, back, operator[]"])

p("C77", "Changing one byte always changes CRC32 and FNV1a",
  "Two byte strings of the same length that differ in exactly one byte have different CRC32, FNV1a32 and FNV1a64.",
  "every byte string, every position, every pair of bytes", "All strings, positions and byte pairs.",
  [I+"Hash.inl: CRC32, FNV1a32, FNV1a64"])
p("C78", "Converting a SparsePtr to a base class keeps designating the base subobjects",
  "SparsePtr<Base>(SparsePtr<Derived>) designates, for every element, the Base subobject of the Derived element, whatever its offset.",
  "every pointer, stride and base class offset", "Needs a base class that is not at offset 0.",
  [I+"SparsePtr.inl: SparsePtr::Reset(const SparsePtr<U>&)"])
p("C79", "SafeCast from floating point to integer asserts exactly on values that are not integers of the type",
  "For a floating point value and an integer destination type, SafeCast asserts (in debug) iff the value is not an integer representable in the destination, and otherwise returns it; it never has undefined behaviour.",
  "every integer type, every finite value, infinities and NaN, every float precision, both value categories", "All floating point values; the problem values are at the rounding of the limits.",
  [I+"Algorithm.inl: SafeCast"])
p("C80", "SafeCast of a pointer or reference to a derived class checks the dynamic type",
  "In debug, SafeCast to a derived class pointer or reference asserts iff the object is not of the derived class; StaticUniquePointerCast likewise.",
  "every class hierarchy, every dynamic type", "Needs wrong downcasts, which are undefined behaviour in a test.",
  [I+"Algorithm.inl: SafeCast, StaticUniquePointerCast"])
p("C81", "Erasing, popping and shrinking keep a vector sound when element moves throw",
  "pop_back and a shrinking resize never throw; erase of one element or a range either returns the expected sequence or leaves by an exception of a move with a vector of the former size whose destructor destroys each object once.",
  "every vector, every position, every place of the exception", "Exceptions out of moves at each possible step have to be injected.",
  [I+"FixedVector.inl: erase, pop_back, resize", I+"StackVector.inl: erase, pop_back, resize"])
p("C82", "An insertion that throws leaves a vector that can be destroyed",
  "When constructing the element throws, push_back, emplace_back and emplace leave the vector with its former elements (or at least destructible without undefined behaviour and leak).",
  "every vector with room, every position, every place of the exception", "Exceptions have to be injected at every step; an undestroyed object is invisible to tests of values.",
  [I+"FixedVector.inl: emplace, emplace_back, push_back", I+"StackVector.inl: emplace, emplace_back, push_back"])
p("C83", "Constructors and growing resize that throw leak nothing",
  "When the construction of an element throws inside resize or a constructor of FixedVector or StackVector, every object constructed so far is destroyed exactly once.",
  "every size, every capacity, every place of the exception", "Exceptions at every element; leaks are invisible to tests of values.",
  [I+"FixedVector.inl: FixedVector, resize", I+"StackVector.inl: resize"])
p("C84", "HybridVector going over to its fallback gives the strong guarantee",
  "When the fallback allocation or the construction of the pushed element throws, the HybridVector holds what it held before and is destroyed correctly.",
  "every HybridVector, every place of the exception", "Needs failing allocations and throwing moves.",
  [I+"FixedVector.inl: CheckFallbackOnGrow, MoveStorageToFallback, push_back, emplace_back"])
p("C85", "MemoryPool stays usable when an allocation throws",
  "When the constructor of the object, or an allocation inside AllocateBlock, throws, the pool holds what it held and can go on allocating and be destroyed.",
  "every reachable pool, each allocation that can fail", "Needs injected bad_alloc inside AllocateBlock and throwing constructors.",
  [I+"MemoryPool.inl: Allocate, AllocateBlock, Reset, ~MemoryPool"])
p("C86", "Callbacks that throw leave signals sound",
  "An exception out of a callback reaches the caller of the emission, the slots before it having been called once and those after it not at all; connections are what the callbacks made them, and all later operations and emissions behave as if no exception had happened.",
  "every reachable world of signals, every behaviour of the callbacks including nested emissions", "The interrupted emission leaves the internal position somewhere in the middle; every later operation has to be tried from there.",
  [I+"Signal.inl: Signal::operator(), Signal::Connect, Signal::Disconnect"])
p("C87", "IsFinite, IsInfinity and IsNaN partition the floating point values, in constant expressions as at run time",
  "For every floating point value exactly one of IsFinite, IsInfinity and IsNaN holds, and the path taken in constant expressions answers as the one at run time.",
  "every value of every IEEE binary format", "2^64 doubles, and two paths of which a test runs one.",
  [I+"MathUtils.inl: IsFinite, IsInfinity, IsNaN"])
p("C88", "NumberEquals on floating point numbers means a difference of at most maxDifference",
  "NumberEquals(a, b, d) is symmetric, the same in constant expressions as at run time, true of a number and itself, and true iff the exact difference of a and b is at most d.",
  "every pair of values and every d, of every IEEE binary format", "The exact difference is not available to a test; the problem cases are at the rounding.",
  [I+"MathUtils.inl: NumberEquals"])
p("C89", "Clamp on floating point numbers stays in the interval",
  "Clamp(v, min, max) is v in [min, max] and else the nearer limit, and applying it twice changes nothing; its result always lies in [min, max].",
  "every value of every IEEE binary format, NaN and infinities included", "All triples of floats.",
  [I+"MathUtils.inl: Clamp"])
p("C90", "Approach on floating point numbers moves towards the objective and never beyond",
  "Approach(v, o, i) with i >= 0 lies between v and o, is o when i covers the distance, and repeated application with i > 0 reaches o.",
  "every value of every IEEE binary format", "All triples of floats; stalling needs increments below half an ulp.",
  [I+"MathUtils.inl: Approach"])
p("C91", "Lerp returns its end points",
  "Lerp(a, b, 0) is a, Lerp(a, b, 1) is b, Lerp(a, a, t) is a, and factors in [0, 1] give results between a and b.",
  "every pair of finite values of every IEEE binary format", "All pairs of floats; depends on the rounding of b - a.",
  [I+"MathUtils.inl: Lerp"])
p("C92", "DegreeToRadian and RadianToDegree are odd and inverse to each other",
  "Both conversions commute with negation, map turns to turns, and converting back and forth returns the value.",
  "every value of every IEEE binary format", "All floats.",
  [I+"MathUtils.inl: DegreeToRadian, RadianToDegree"])
p("C93", "Mod on floating point numbers is the same in constant expressions as at run time",
  "The value computed in a constant expression equals std::fmod of the arguments.",
  "every pair of values of every IEEE binary format", "Two paths of which a test runs one; the difference is at rounded quotients.",
  [I+"MathUtils.inl: Mod"])
p("C94", "The UTF-8 conversions keep every byte",
  "ToUtf8String and FromUtf8String keep the bytes, length and address of their argument and are inverse to each other; for a pointer the result is the text before the first zero, and it does not change when the caller later reuses the buffer.",
  "every string, view and pointer into every memory, both language standards", "All strings; the standards differ in the overload used.",
  [I+"StringUtils.inl: FromUtf8String, ToUtf8String"])
p("C95", "Transparent string hashing finds what was inserted, whatever the key type",
  "In an unordered_map with StringHash, find by pointer, view or string returns the value last inserted for that text, or end; equal texts have equal hashes.",
  "every hash function, every number of buckets, every history of insertions and erasures, every key", "Depends on collisions and buckets of the hash function in use.",
  [I+"StringHash.inl: StringHash::operator()"])
p("C96", "Retrieve returns the value stored under the key",
  "Retrieve(map, key) is a reference to the mapped value of that key, so assigning through it changes this value only; a missing key is caught by the assertion.",
  "every map reached by insertions and erasures, every key", "All maps and keys; the aliasing of the reference.",
  [I+"Algorithm.inl: Retrieve"])
p("C97", "Utf8Path and PathToString are inverse to each other",
  "PathToString(Utf8Path(s)) is s on POSIX, and on Windows s with backslashes turned into slashes, for all valid UTF-8; invalid UTF-8 is an exception there.",
  "every byte string", "Tests run on one platform; all code points and all ill-formed sequences.",
  [I+"PathUtils.inl: Utf8Path, PathToString", I+"StringUtils.inl"])
p("C98", "BitCast is a bijection between representations",
  "BitCast<To>(v) is defined, BitCast<From> of it is v, between integers of the same width it is conversion modulo 2^n, and as bytes it is the byte order of the machine; std::bit_cast and the memcpy implementation agree.",
  "every pair of types of equal size among integers, bool, pointers, float, double and byte arrays, every value, both byte orders", "2^64 values and two implementations of which one is compiled.",
  [I+"Algorithm.inl: BitCast"])
p("C99", "AccessByOffset with NazaraOffsetOf accesses the member and nothing else",
  "For a standard-layout class, what is written through AccessByOffset(&object, NazaraOffsetOf(T, m)) is read back by the same expression, the access is aligned and stays inside the member, and members do not overlap.",
  "every list of members of any size and power-of-two alignment, every object address", "All layouts.",
  [I+"Algorithm.inl: AccessByOffset", I+"OffsetOf.hpp: NazaraOffsetOf"])
p("C100", "FunctionTraits describes every callable",
  "FunctionTraits<T> has the return and parameter types of the function called through T, for function types, pointers, member pointers with any qualifiers and classes with one call operator, through const and references.",
  "every type", "A template is tested for the types named in the test.",
  [I+"FunctionTraits.hpp: FunctionTraits"])
p("C101", "IsFunctor tells whether FunctionTraits can be used",
  "IsFunctor<T> is never ambiguous and is true exactly for the types FunctionTraits accepts.",
  "every type", "A template is tested for the types named in the test.",
  [I+"FunctionTraits.hpp: IsFunctor"])
p("C102", "Overload selects the function with the given parameters",
  "Overload<Args...>(f) is the function of the set f with parameters Args..., and ill-formed when there is none or several.",
  "every overload set, every list of parameter types", "Errors are compile-time errors, which tests cannot contain.",
  [I+"FunctionTraits.hpp: OverloadResolver, Overload"])
p("C103", "The type traits compute what their names say",
  "EnumValueCount is the number of enumerators for enumerations with Count or Max; RemoveCvRef is idempotent and removes exactly references and qualifiers; PointedType, FunctionPtr, IsFirstType, IsComplete and PreventHiddenCopyMove satisfy their definitions.",
  "every type, every enumeration", "A template is tested for the types named in the test.",
  [I+"TypeTraits.hpp: EnumValueCount, FunctionPtr, IsComplete, IsFirstType, PointedType, RemoveCvRef, PreventHiddenCopyMove"])
p("C104", "The constants are the numbers nearest to the mathematical ones, and the limits those of the type",
  "HalfPi, Pi, Tau, Sqrt2, Sqrt3 and Sqrt5 are the values of T nearest to the real constants, Tau = 2 Pi = 4 HalfPi, MaxValue and MinValue are the largest and least finite values of T, Infinity is beyond them, BitCount is the number of bits.",
  "float, double and x87 long double for the constants; every binary format and every integer type for the limits", "Tests compare with constants written with the same digits.",
  [I+"Constants.hpp: BitCount, MathConstants"])
p("C105", "NazaraAssert is a statement",
  "NazaraAssert(c); can stand wherever a statement can: it evaluates c, stops the program iff c is false and changes nothing else; programs whose assertions hold run the same when it is compiled out.",
  "every program of expression statements, if, else and blocks, every condition, with and without side effects", "Concerns programs that use the library, of every shape.",
  [I+"Assert.hpp: NazaraAssert"])
p("C106", "MultiplyAdd computes x * y + z with one rounding, whichever implementation is compiled",
  "The result is the number nearest to the exact x * y + z, the same with and without a fast std::fma; it is monotone in z.",
  "every triple of values of every IEEE binary format", "All floats, and two implementations of which the target selects one.",
  [I+"MathUtils.inl: MultiplyAdd"])
p("C107", "The stack allocation macros provide memory for exactly the elements constructed in it",
  "NazaraStackArray(T, n) and NazaraStackVector(T, n) reserve memory for n aligned elements below the stack pointer, disjoint from that of the other macros of the function, evaluating n as an ordinary argument.",
  "every size expression (with its side effects), element size, alignment, stack pointer, platform with alloca and order of evaluation", "Depends on the order of evaluation, on the stack pointer and on sizes no test reaches.",
  [I+"StackArray.hpp: NazaraStackArray", I+"StackVector.hpp: NazaraStackVector", I+"MemoryHelper.hpp: NAZARA_ALLOCA"])
p("C108", "NAZARA_DEFER runs the code when the block is left",
  "NAZARA_DEFER(e); followed by the rest of the block means try { rest } finally { e }: deferred code runs exactly once, in reverse order, however the block is left.",
  "every program of statements, blocks, conditionals, throws and deferred code", "Concerns programs that use the library, of every shape.",
  [I+"CallOnExit.hpp: NAZARA_DEFER"])
p("C109", "A failed assertion prints its message and stops the program",
  "The text written for a failed assertion is the condition or the formatted message, followed by file and line; the program does not go on after it; an assertion that holds prints nothing.",
  "every condition text, message, argument list, file and line", "Tests cannot survive a failed assertion, and see a few messages only.",
  [I+"Assert.inl: AssertFailure, AssertFailureWithSource, Assert, AssertWithSource", I+"Assert.hpp: NazaraAssert, NazaraAssertMsg"])
p("C110", "The preprocessor recognises compiler, language, platform, architecture and byte order",
  "For every set of predefined macros exactly one compiler is recognised, version checks compare versions, one platform, the one architecture whose macros are defined and the byte order are found, or there is an error.",
  "every environment of macros", "Every environment of macros is a compiler; a test runs with one.",
  [I+"Prerequisites.hpp: NAZARA_COMPILER_*, NAZARA_CHECK_*, NAZARA_PLATFORM_*, NAZARA_ARCH_*", I+"Endianness.hpp: NAZARA_BIG_ENDIAN, NAZARA_LITTLE_ENDIAN, PlatformEndianness"])
p("C111", "Iterators of the fixed containers visit every element once, in order",
  "A loop from begin() to end() reads the contents in order, from rbegin() to rend() in reverse order; assigning through the iterators changes every element and nothing else; every loop ends.",
  "every history of operations, capacity, with and without fallback storage, every function applied to the elements", "All histories and sizes; the storage iterated over changes with the history.",
  [I+"FixedVector.inl: begin, end, rbegin, rend, data", I+"StackVector.inl: begin, end, rbegin, rend", I+"StackArray.inl: begin, end, rbegin, rend"])
p("C112", "FixedBitset and HybridBitset behave as Bitset",
  "After any sequence of operations on FixedBitsets or HybridBitsets the bits, counts, searches, strings, integers and comparisons are those of a list of bits; a HybridBitset has no bound, a FixedBitset stops with an assertion exactly when a Bitset would or when the bits do not fit its blocks, and Capacity bits always fit.",
  "every history of operations on any number of bitsets, block width, capacity, with and without fallback storage", "All histories, capacities and widths; storage moves between inline and heap at sizes tests rarely hit.",
  [I+"Bitset.hpp: FixedBitset, HybridBitset", I+"Bitset.inl: every operation, on a FixedVector or HybridVector of blocks", I+"FixedVector.inl: resize, push_back, operator[], operator=, move and copy constructors"])
p("C113", "Calls of the hash functions reach the overload for their argument",
  "CRC32, FNV1a32 and FNV1a64 of an array, a pointer, a string or a view hash the text; HashCombine returns the combination of the hashes of its arguments.",
  "every argument type, constness and value category, array size and content, type of std::size_t", "Overload resolution ranks every pair of argument types and overloads; a test makes the calls it makes.",
  [I+"Hash.hpp: CRC32, FNV1a32, FNV1a64, HashCombine", I+"Hash.inl: CRC32, FNV1a32, FNV1a64, HashCombine"])
p("C114", "Arithmetic arguments select the function for a position, a size or a value",
  "Bitset::Set, Bitset::Reset, the constructors of Bitset, SparsePtr and FixedVector select for arguments of any arithmetic type the function that the number of arguments and their roles announce.",
  "every arithmetic type of every argument, constness, value category, the literal 0, type of std::size_t", "All combinations of arithmetic types and platforms; a wrong choice compiles silently.",
  [I+"Bitset.hpp: Set, Reset, Bitset", I+"SparsePtr.hpp: SparsePtr", I+"FixedVector.hpp: FixedVector"])
p("C115", "A template that takes anything does not hide the functions next to it",
  "Where a template parameter accepts every argument (Bitset, PrivateImpl, MovableValue, Signal::Connect, SparsePtr::operator-, CountOf) the dedicated functions are selected for the arguments they are declared for.",
  "every argument type, constness and value category", "Overload resolution depends on constness and value category in ways tests seldom vary.",
  [I+"Bitset.hpp: Bitset, operator=", I+"PrivateImpl.hpp: PrivateImpl", I+"Signal.hpp: Connect", I+"MovableValue.hpp: operator=", I+"SparsePtr.hpp: operator-", I+"Algorithm.hpp: CountOf"])
p("C116", "A slot is connected exactly while its guard holds it",
  "After any sequence of connecting, moving, assigning, disconnecting and destroying guards and clearing signals, the connected slots are those held by exactly one guard; copies of a signal start without slots and leave the original as it is; Connection::Connect leaves the former slot connected.",
  "every history of guards on any number of signals, every reached state for copies and reconnection", "All histories of moves between guards matter; a wrong move disconnects a slot too early or never.",
  [I+"Signal.inl: ConnectionGuard, Connection::Connect, Signal(const Signal&), operator=(const Signal&)"])
p("C117", "Every callback receives the arguments emitted",
  "Whatever the callbacks do with their parameters, each slot receives the values emitted, parameters declared as references are the emitter's variables, and the emitter's variables passed by value or const reference do not change.",
  "every list of slots, parameter modes and values, every effect of the callbacks on their parameters, every reached state", "An argument moved instead of copied is seen by the second callback only, and only for types whose moved-from value differs.",
  [I+"Signal.inl: operator(), Connect"])
p("C118", "The captures of a callback live while it runs",
  "A callback can use its captures after anything it does to signals and connections.",
  "every reached state, everything callbacks do to signals and connections, at every depth of nested emissions", "Use of destroyed captures often goes unnoticed.",
  [I+"Signal.inl: operator(), Disconnect, Clear, Connection::Disconnect"])
p("C119", "The bit functions give the same results when compiled by MSVC",
  "CountBits, FindFirstBit and FindLastBit give the number of one bits of their argument and the position of its lowest and highest one bit on every machine MSVC compiles for.",
  "every integer type and value, x86, x64, ARM and ARM64, debug and release", "Tests run on one compiler and one machine.",
  [I+"MathUtils.inl: CountBits, FindFirstBit, FindLastBit", I+"Algorithm.inl: SafeCast"])
p("C120", "Declarations around an enumeration configure its flags",
  "An enumeration enabled by EnumAsFlags or EnableEnumAsNzFlags has exactly its enumerators as flags, however their number is declared (Count, Max or EnumAsFlags::max), and AutoFlag decides whether enumerators are positions or values.",
  "every list of enumerators, every combination of the declarations", "Each combination is another program.",
  [I+"Flags.hpp: EnumAsFlags, EnableEnumAsNzFlags, EnableAutoFlagForNzFlags, IsEnumFlag, GetEnumAutoFlag, GetEnumFlagMax, Flags", I+"TypeTraits.hpp: EnumValueCount, IsComplete"])
p("C121", "The macros that hide compiler features expand to valid code with one meaning",
  "Whatever the compiler and the language version, NAZARA_LIKELY and NAZARA_UNLIKELY test their argument, NAZARA_ASSUME and NazaraUnused are statements without effect, NAZARA_UNREACHABLE does not go on, and NAZARA_IS_CONSTEVAL and NAZARA_IS_RUNTIME_EVAL tell constant evaluation from run time.",
  "every set of macros predefined by a compiler, every expression and statement around the macros", "Tests compile with a few compilers; the other expansions are never parsed.",
  [I+"Prerequisites.hpp: NAZARA_ASSUME, NAZARA_LIKELY, NAZARA_UNLIKELY, NAZARA_UNREACHABLE, NazaraUnused", I+"ConstantEvaluated.hpp: NAZARA_IS_CONSTEVAL, NAZARA_IS_RUNTIME_EVAL, NAZARA_CONSTEXPR20"])
p("C122", "A Bitset survives an allocation that fails",
  "When the container of a Bitset cannot get memory, every member that grows it (Resize, UnboundedSet, the logical operators, AppendBits, Write) leaves the bitset as it was before the call.",
  "every bitset, every argument, every aliasing of destination and operands, each allocation that can fail", "Needs injected bad_alloc at every growth of the container.",
  [I+"Bitset.inl: Resize, UnboundedSet, PerformsAND, PerformsNOT, PerformsOR, PerformsXOR, AppendBits, Write"])
p("C123", "A Bitset compiled without assertions",
  "Compiled without assertions, Bitset behaves as with them for every history whose assertions hold, and a call with a violated precondition does not change the bitset or is undefined.",
  "every history of operations, every bitset, block width and argument", "Tests run in one build mode; a disagreement between modes shows up in the other only.",
  [I+"Bitset.inl: Set, Reset, Test, GetBlock, SetBlock, FindNext, Reverse, To, Write, operator<, PerformsAND, PerformsOR, PerformsXOR, PerformsNOT", I+"Assert.hpp: NazaraAssert, NazaraAssertMsg"])
p("C124", "FixedVector and HybridVector compiled without assertions",
  "Compiled without assertions, FixedVector and HybridVector behave as with them for every history whose assertions hold, and a call with a violated precondition is undefined.",
  "every capacity, every history of operations, every reached vector, every violating call", "Tests run in one build mode; what a violating call leaves behind is not observed.",
  [I+"FixedVector.inl: emplace, insert, push_back, emplace_back, pop_back, erase, resize, reserve, operator[], CheckFallbackOnGrow", I+"Assert.hpp: NazaraAssert, NazaraAssertMsg"])
p("C125", "StackVector and StackArray compiled without assertions",
  "Compiled without assertions, StackVector and StackArray behave as with them for every history whose assertions hold, and a call with a violated precondition is undefined.",
  "every capacity, every history of operations, every reached vector, every violating call", "Tests run in one build mode; what a violating call leaves behind is not observed.",
  [I+"StackVector.inl: emplace, insert, push_back, emplace_back, pop_back, erase, resize, operator[], front, back", I+"StackArray.inl: operator[], front, back", I+"Assert.hpp: NazaraAssert, NazaraAssertMsg"])
p("C126", "Scalar functions, Flags iteration, SparsePtr and PrivateImpl compiled without assertions",
  "Compiled without assertions, the bit functions, IsPow2, Align, AlignPow2, the iterator of Flags, SparsePtr and PrivateImpl give the same results whenever the assertions hold; a violated one never gives a silent wrong result and never loses an object.",
  "every integral type, every value and bit index, every alignment, every stride, every history of PrivateImpl operations", "Tests run in one build mode; a lost object is invisible to the program.",
  [I+"MathUtils.inl: SetBit, ClearBit, ToggleBit, TestBit, IsPow2, Align, AlignPow2", I+"Flags.inl: iterator", I+"SparsePtr.inl: SparsePtr", I+"PrivateImpl.inl: Emplace", I+"Assert.hpp: NazaraAssert"])
p("C127", "MemoryPool compiled without assertions",
  "Compiled without assertions, every history of a MemoryPool that keeps to its contract has the specified effect, and every violation is undefined.",
  "every block size, every history, every reached pool, every index, every size and alignment of T", "Tests run in one build mode; a wrong index or an address of a free entry looks like a right one.",
  [I+"MemoryPool.inl: Allocate, Free, Clear, Reset, RetrieveFromIndex, RetrieveEntryIndex, GetAllocatedPointer, GetFirstAllocatedEntryFromBlock, GetNextAllocatedEntry"])
p("C128", "SafeCast to floating point types",
  "SafeCast to a floating point type accepts exactly the values the target can represent, and gives that value.",
  "every pair of binary formats, every number, infinities and NaN, every integer, lvalues and prvalues, both build modes", "There are 2^64 doubles; rounding and the largest number are easily missed.",
  [I+"Algorithm.inl: SafeCast"])
p("C129", "FunctionRef takes exactly what it can call, for as long as it can",
  "The constructor of FunctionRef accepts an argument exactly when calling it through the reference compiles, the call then reaches what a direct call reaches, and the reference stays valid as long as the function named.",
  "every result type and conversion, functions, function pointers, every set of function call operators with const and ref-qualifiers, const or not, lvalues and temporaries, every program over callables and references", "Each wrong acceptance is a compile error in one combination of const, category and result type; a dangling reference often still works in a test.",
  [I+"FunctionRef.hpp: FunctionRef", I+"FunctionRef.inl: FunctionRef, operator()"])
p("C130", "Errors CRC32 detects",
  "Two messages whose difference fits in 32 consecutive bits have different CRCs, wherever it lies and however long they are; of the 33-bit differences only the generator polynomial is missed; two wrong bits are detected unless their distance is a multiple of 2^32 - 1.",
  "all messages of any length, every position, every pattern of up to 33 bits, every distance between two bits", "There are 2^32 patterns per position and unbounded messages; a reversed or mistyped table passes the check value of one string and loses the guarantee.",
  [I+"Hash.inl: CRC32 (string_view, const UInt8*)", I+"Hash.inl: Detail::GenerateCRC32Table"])
p("C131", "CRC32 of composed messages",
  "Appending a common suffix keeps equal CRCs equal and different ones different, and so does a common prefix for equal lengths; the CRC of the exclusive or of three messages of one length is the exclusive or of their CRCs; a message followed by its CRC has the CRC 0x2144DF1C; exactly one choice of four bytes appended gives any wanted CRC; leading zero bytes change the CRC.",
  "all messages of any length, all common parts, all wanted CRCs, every number of leading zeros below 2^32 - 1", "Laws between runs on different messages; uniqueness of the four bytes ranges over 2^32 candidates per message.",
  [I+"Hash.inl: CRC32 (string_view, const UInt8*)", I+"Hash.inl: Detail::GenerateCRC32Table"])
p("C132", "FNV-1a and HashCombine keep what they are given",
  "FNV-1a of messages with a common suffix or prefix agree exactly when those of the messages do, zero bytes in front or at the end change the hash, and HashCombine gives different results for different seeds and values, whatever the width of std::size_t.",
  "all messages, suffixes, numbers of zero bytes, seeds, hashes and lists of combined values; std::size_t of 32 and 64 bits", "Collisions are one in 2^32 or 2^64: no test meets them by chance, but they can be computed and hold for every continuation.",
  [I+"Hash.inl: FNV1a32, FNV1a64", I+"Hash.inl: HashCombine"])
p("C133", "Callbacks may destroy or move signals",
  "An emission whose callbacks destroy signals makes the same calls and leaves the same connections as one whose callbacks clear these signals instead, and an emission survives the destruction or the move of the signal being emitted.",
  "all worlds reached by any program, all behaviors of the callbacks (connecting, disconnecting, clearing, emitting, destroying signals, in nested emissions too)", "What happens depends on which callback destroys which signal at which depth of nesting; reads of destroyed members rarely crash.",
  [I+"Signal.inl: Signal::operator()", I+"Signal.inl: Signal::Signal(Signal&&), Signal::operator=(Signal&&)", I+"Signal.hpp: Signal::~Signal"])
p("C134", "A MemoryPool can be changed while it is iterated",
  "A loop over a MemoryPool whose body allocates and frees entries visits each entry at most once, in increasing order of index, and every entry that stays allocated, and it ends.",
  "all pools reached by any history, all block sizes, all bodies (any sequence of Allocate, Free, Clear, constructions and destructions, depending on the entries visited so far)", "The interaction of the position of the iterator with later changes of any block has unboundedly many cases; loops that do not end cannot be tested for.",
  [I+"MemoryPool.inl: MemoryPoolIterator::operator++, MemoryPoolIterator::operator*", I+"MemoryPool.inl: GetNextAllocatedEntry, GetFirstAllocatedEntryFromBlock", I+"MemoryPool.inl: Allocate, Free, Clear"])
p("C135", "A Bitset can be changed while its bits are iterated",
  "A loop over the set bits of a Bitset whose body changes it (and other bitsets) visits each position at most once, in increasing order, and every position that stays set, and it ends.",
  "all bitsets, all block widths, all bodies (any sequence of the operations of C01, depending on the positions visited so far)", "The interaction of the position of the iterator with later changes has unboundedly many cases; loops that do not end cannot be tested for.",
  [I+"Bitset.inl: BitIterator::operator++, BitIterator::operator*", I+"Bitset.inl: FindNext, FindFirst"])
p("C136", "Iterators meet the requirements of the category they declare",
  "Every expression the standard requires of the declared iterator category compiles and has the required type, std::iterator_traits works, and any expression over iterators computes what the same expression over pointers into an array computes.",
  "all five iterator classes; all expressions built from the iterator operators, all arrays, positions and offsets", "Expressions that do not compile cannot be in a test, and the chains of operators are unboundedly many.",
  [I+"EnumArray.hpp: EnumArrayKvIterator", I+"EnumArray.inl: EnumArrayKvIterator::operator+=, operator-=, operator+, operator-", I+"Bitset.hpp: BitIterator", I+"Flags.hpp: Flags::iterator", I+"MemoryPool.hpp: MemoryPoolIterator", I+"SparsePtr.hpp: SparsePtr", I+"SparsePtr.inl: std::iterator_traits"])
p("C137", "Entries of a MemoryPool may use the pool",
  "Constructors and destructors of the entries of a pool may allocate and free entries of that pool: freeing the root of a tree of entries frees the tree, and Clear and the destructor destroy every object once.",
  "all pools reached by any history, all constructors and destructors given as sequences of Allocate and Free calls, any nesting depth, all ownership trees", "The calls nest to any depth and interleave with the bookkeeping of the outer call; what goes wrong depends on the order of the indices of owner and owned.",
  [I+"MemoryPool.inl: MemoryPool::Allocate", I+"MemoryPool.inl: MemoryPool::Free", I+"MemoryPool.inl: MemoryPool::Reset", I+"MemoryPool.inl: MemoryPool::Clear", I+"MemoryPool.inl: MemoryPool::~MemoryPool"])
p("C138", "The constructors of Result initialise the side meant",
  "Ok(x) makes a value, Err(x) an error, an object of the value type a value, another Result a Result of the same side, and ErrorTag an error, whatever the types and the value category; nothing else is constructed.",
  "all value and error types built from classes, void and Result; all conversions between classes; all four value categories; all values", "Overload resolution among seven constructors depends on the types and on the value category of the argument; nested Results are unboundedly many and much of what goes wrong does not compile.",
  [I+"Result.hpp: Result", I+"Result.inl: Result::Result", I+"Result.inl: Ok", I+"Result.inl: Err"])
p("C139", "NazaraOffsetOf is the offset of the member in the class named, and AccessByOffset keeps const",
  "NazaraOffsetOf(T, m) compiles for every non-static data member m of T, declared or inherited, and is the distance from the start of a T to m, as a constant; AccessByOffset gives exactly the reference or pointer asked for, at that distance, and never removes const.",
  "all class hierarchies without virtual bases, in any layout; all member names and member types; C++17 and C++20; all target types and base pointers", "The macro depends on the class that declares the member, on deduction and on the qualifiers of the member; hierarchies are unboundedly many, and wrong offsets only show with a base that is not at the start.",
  [I+"OffsetOf.hpp: NazaraOffsetOf", I+"OffsetOf.hpp: Detail::GetClassType", I+"OffsetOf.hpp: Detail::GetMemberType", I+"OffsetOf.hpp: Detail::OffsetOf", I+"Algorithm.inl: AccessByOffset"])
p("C140", "Elements of a FixedVector or StackVector may use the vector while they are constructed and destroyed",
  "Constructors and destructors of elements may call emplace_back, pop_back, operator[], clear and resize of the vector holding them: every element added exists once, in order, and is destroyed once, or an assertion fails; no element is used outside its lifetime.",
  "all capacities and states of a vector using its inline storage; all behaviours of the constructors and destructors of elements; all nestings of calls", "Calls nest to any depth, each in a state the outer calls have half changed; the failures depend on which element is being constructed or destroyed, and pass silently when the slot is reused.",
  [I+"FixedVector.inl: FixedVector::emplace_back", I+"FixedVector.inl: FixedVector::pop_back", I+"FixedVector.inl: FixedVector::clear", I+"FixedVector.inl: FixedVector::resize", I+"StackVector.inl: StackVector::emplace_back", I+"StackVector.inl: StackVector::clear", I+"StackVector.inl: StackVector::resize"])
p("C141", "What is declared constexpr can be used in constant expressions",
  "The classes of the library whose constructors are declared constexpr are literal types when what they hold is, and a call to a function declared constexpr with valid arguments is a constant expression in every supported standard.",
  "all types built from scalars, arrays, vectors, optionals, variants and user classes; all values and texts; C++17, C++20 and C++23; all hosts", "Tests evaluate a few functions at compile time in one standard; a function template that is constexpr in name only compiles silently and is only rejected where a constant is required.",
  [I+"ConstantEvaluated.hpp: NAZARA_CONSTEXPR20", I+"FixedVector.hpp: FixedVector", I+"Bitset.hpp: Bitset", I+"Bitset.hpp: Bitset::Bit", I+"Result.hpp: Result", I+"MovableValue.inl: MovableLiteral::operator=", I+"MathUtils.inl: NumberEquals", I+"MathUtils.inl: ByteSwapImpl", I+"Flags.hpp: Flags::iterator", I+"MemoryHelper.inl: PlacementNew"])
p("C142", "Objects of a PrivateImpl may use handles while they are constructed and destroyed",
  "Constructors and destructors of implementation objects may call Emplace, Reset and the accessors of PrivateImpl handles, their own included: no object is used or deleted outside its lifetime, and every object created is destroyed once by the time the handles have ended.",
  "all numbers of handles; all behaviours of constructors and destructors, depending on the handle and the object; all programs of Emplace, Reset and accesses; all nestings", "The failures need an object whose destructor reaches its own handle; calls nest to any depth and depend on the order of declaration of the handles.",
  [I+"PrivateImpl.inl: PrivateImpl<T, 0>::Emplace", I+"PrivateImpl.inl: PrivateImpl<T, 0>::Reset", I+"PrivateImpl.inl: PrivateImpl<T, 0>::~PrivateImpl", I+"PrivateImpl.inl: PrivateImpl<T, 0>::HasValue"])
p("C143", "A bitset written to a stream reads back as it was",
  "Bitsets written to a stream with operator<<, a space after each, and read back word by word through std::string are the bitsets written, whatever the width, fill character and adjustment of the stream.",
  "all block widths; all bitsets and sequences of bitsets; all stream widths, fill characters and adjustments", "The text depends on the state of the stream, which other output leaves behind; tests print with default settings.",
  [I+"Bitset.inl: operator<<(std::ostream&, const Bitset&)", I+"Bitset.inl: Bitset::ToString", I+"Bitset.inl: Bitset::Bitset(const std::string&)"])
p("C144", "Within the capacity of a bitset nothing is allocated and no block moves",
  "The capacity of a Bitset is never below its size. Reserve(n) changes no bit and leaves a capacity of at least n, allocating exactly when the capacity was below n. Every other call that is not an assignment from a text, a number or a new bitset, or an exchange, keeps the blocks where they are when the new size is within the capacity, and otherwise puts them in memory no bitset used before.",
  "all block widths; all histories of calls on any number of bitsets; every way the standard library chooses capacities; all sizes", "Whether a call reallocates is not visible in results; tests do not look at addresses, and the growth policy of one library hides calls that would allocate under another.",
  [I+"Bitset.inl: Bitset::Reserve", I+"Bitset.inl: Bitset::GetCapacity", I+"Bitset.inl: Bitset::Resize", I+"Bitset.inl: Bitset::AppendBits", I+"Bitset.inl: Bitset::Write", I+"Bitset.inl: Bitset::PerformsAND", I+"Bitset.inl: Bitset::operator=(const std::string_view&)"])
p("C145", "Elements of a vector before the position of an operation stay where they are, until a HybridVector leaves its inline storage for good",
  "An operation of FixedVector, HybridVector or StackVector on the inline storage neither reads nor writes the elements before its position: with anything in their place it does the same to the rest, so pointers and references to them stay valid and their values are kept. A HybridVector leaves its inline storage exactly at the first operation that asks for more than the capacity; from then on no object lives there, whatever operations follow, and all earlier pointers dangle.",
  "all element types; all capacities including 0; all vectors that histories of operations lead to; all operations and all prefixes; all contents put in place of the prefix", "A reference kept across push_back usually still reads the old value even when the storage has moved or the element was moved and written back; tests compare values.",
  [I+"FixedVector.inl: FixedVector::emplace", I+"FixedVector.inl: FixedVector::push_back", I+"FixedVector.inl: FixedVector::erase", I+"FixedVector.inl: FixedVector::resize", I+"FixedVector.inl: FixedVector::reserve", I+"FixedVector.inl: FixedVector::clear", I+"FixedVector.inl: FixedVector::CheckFallbackOnGrow", I+"FixedVector.inl: FixedVector::MoveStorageToFallback", I+"StackVector.inl: StackVector::emplace"])
p("C146", "Pools can be moved and exchanged without their entries noticing",
  "In every program that constructs, uses, move-constructs, exchanges and ends MemoryPool variables, each pool is a row of slots: moving and exchanging pass on the rows whole, every entry keeping its index, its object and its address, the source of a move being an empty pool of the same block size that can be used again, and when the variables end every object has been destroyed.",
  "all entry types and sizes; all block sizes from 1; all programs over any number of pools; all addresses given by the allocator", "Tests with one pool do not see what a move leaves behind; objects that are never destroyed fail no assertion.",
  [I+"MemoryPool.hpp: MemoryPool::MemoryPool(MemoryPool&&)", I+"MemoryPool.hpp: MemoryPool::operator=(MemoryPool&&)", I+"MemoryPool.inl: MemoryPool::~MemoryPool", I+"MemoryPool.inl: MemoryPool::Clear", I+"MemoryPool.inl: MemoryPool::Allocate"])
p("C147", "Emitting one signal from several threads",
  "Threads that emit signals whose slots do not change call every slot of every signal they emit once and in order, without data race, under every schedule; operator() is const.",
  "all numbers of threads, programs (sequences of emissions), numbers of slots, initial values of m_slotIterator and all schedules of the single accesses", "Races depend on the schedule; a test that runs threads sees a handful of schedules, and usually harmless ones.",
  [I+"Signal.inl: Signal::operator()(Args...) const", I+"Signal.hpp: mutable SlotListIndex m_slotIterator"])
p("C148", "Giving back a pool entry twice",
  "Giving back, with Free(index, NoDestruction), an entry of a MemoryPool that is not allocated is refused by the assertion on the block's counter, or does no harm: later calls that keep to the contract still work.",
  "all block sizes, all histories of allocations, constructions, destructions, returns (also of entries that are not allocated) and Clear, and all object values", "A test sees one double return in one state; whether it is noticed depends on what else the block holds, and its effects show many calls later.",
  [I+"MemoryPool.inl: Allocate(DeferConstruct_t, index)", I+"MemoryPool.inl: Free(index, NoDestruction_t)", I+"MemoryPool.inl: Clear, Reset", I+"MemoryPool.inl: GetAllocatedEntryCount"])
p("C149", "Giving back a pool entry twice, compiled without assertions",
  "Compiled without assertions, giving back with Free(index, NoDestruction) an entry of a MemoryPool that is not allocated does no harm: later calls that keep to the contract still work.",
  "all block sizes, all histories of allocations, constructions, destructions, returns (also of entries that are not allocated) and Clear, and all object values", "The counter of a block wraps below zero without notice; what that breaks shows only when the block is full, cleared or iterated.",
  [I+"MemoryPool.inl: Allocate(DeferConstruct_t, index)", I+"MemoryPool.inl: Free(index, NoDestruction_t)", I+"MemoryPool.inl: Clear, Reset", I+"MemoryPool.inl: GetAllocatedEntryCount, GetFreeEntryCount", I+"MemoryPool.inl: GetFirstAllocatedEntryFromBlock"])
p("C150", "Slots are called in the order in which they were connected",
  "An emission calls the slots of a signal in the order in which they were connected.",
  "any number of signals and slots, all histories of connections, disconnections, Clear and emissions; the one-step statements for callbacks that do anything", "Disconnect fills the gap with another slot; the order changes only when an old slot leaves, and the tests add up numbers, which no order can change.",
  [I+"Signal.inl: Connect", I+"Signal.inl: Disconnect(const SlotPtr&)", I+"Signal.inl: Clear", I+"Signal.inl: operator()"])
p("C151", "Expressions of bitsets obey the laws of Boolean algebra",
  "Two expressions made of &, |, ^ and ~ that are equal by the laws of Boolean algebra give bitsets that compare equal, and operands that compare equal may replace each other.",
  "all expressions of any depth, all bitsets of any sizes, all block widths", "There are infinitely many laws and sizes; the tests compare a few results of single operators.",
  [I+"Bitset.inl: operator~", I+"Bitset.inl: operator&, operator|, operator^ (free functions)", I+"Bitset.inl: PerformsAND, PerformsOR, PerformsXOR, PerformsNOT", I+"Bitset.inl: operator<<, operator>>"])
p("C152", "Flags made from a number are a set of enumerators",
  "A Flags object made from a number holds the enumerators whose bits are set in it, and behaves as that set: comparison, iteration, Count and the operators depend on the enumerators alone.",
  "all enumerations with up to 64 values, all integers", "The constructor takes any number; bits that belong to no enumerator are kept by some operators and dropped by others. The tests make flags from enumerators only.",
  [I+"Flags.inl: Flags(BitField value)", I+"Flags.inl: operator~, operator^, operator&, operator|, operator==", I+"Flags.inl: begin, Count, iterator", I+"Flags.hpp: BitField, ValueMask"])
p("C153", "std::swap exchanges two objects",
  "std::swap of two objects of a movable class of the library leaves each with what the other had, and nothing else happens: no object is lost, leaked or ended twice, and no connection changes.",
  "all pairs of objects of MovableLiteral, MovablePtr, MovableValue, Result, StackVector, StackArray, FixedVector, HybridVector, ConnectionGuard and Signal, in all states", "std::swap composes a move construction, two move assignments and the end of the temporary, each of which leaves its source in a state of its own; the outcome depends on sizes, on where the elements are kept and on the order of the arguments. No test swaps anything but bitsets.",
  [I+"MovableValue.inl, MovablePtr.inl: moves", I+"Result.hpp: defaulted moves", I+"StackVector.hpp, StackArray.hpp: defaulted moves, destructors", I+"FixedVector.inl: FixedVector(FixedVector&&), operator=(FixedVector&&)", I+"Signal.inl: Signal(Signal&&), operator=(Signal&&), ConnectionGuard::operator=(ConnectionGuard&&)"])
p("C154", "A Connect that fails leaves everything as it was",
  "When memory runs out in Connect, the signal keeps its slots in their order and its place in a running emission, the caller keeps the function, and a connection or guard that was to be assigned keeps the slot it had.",
  "all signals, in the middle of emissions as well, all places where an allocation can fail, all guards", "Allocation failures are not tested, and may happen at the copy of the function, at the slot, at the first std::vector and at its growth, each with other things done already.",
  [I+"Signal.inl: Connect(const Callback&), Connect(Callback&&)", I+"Signal.inl: Connection::Connect, ConnectionGuard::Connect", I+"FixedVector.inl: emplace_back, CheckFallbackOnGrow, MoveStorageToFallback"])
p("C155", "AppendBits appends the low bits of signed integers",
  "AppendBits of a signed integer appends exactly the requested number of low bits of its two's complement representation and leaves no bit set past the size.",
  "every bitset, every block width, every signed width and value, every number of bits up to the width of the type", "The conversion of a negative value to a wider block extends its sign; whether the extension is masked depends on the widths, the place in the last block and the number of bits. The tests append unsigned values.",
  [I+"Bitset.inl: AppendBits"])
p("C156", "Shifts, reversal and counting obey the laws of bit strings",
  "Two shifts in a row are one shift by the sum; a shift there and back clears exactly the bits that fell off; reversal turns a left shift into a right shift; right shifts distribute over &, | and ^ whatever the sizes, left shifts for equal sizes; Count(a|b)+Count(a&b) = Count(a)+Count(b), Count(a^b)+2 Count(a&b) = Count(a)+Count(b), Count(~a) = size-Count(a), reversal keeps the count, a shift loses exactly the bits that fall off, and Intersects holds exactly when Count(a&b) is not 0.",
  "every block width, all bitsets of any sizes, all shift distances", "The laws relate several operations, each of which has its own treatment of whole blocks and of the last partial block; the tests check single operations on chosen values.",
  [I+"Bitset.inl: ShiftLeft", I+"Bitset.inl: ShiftRight", I+"Bitset.inl: Reverse", I+"Bitset.inl: Count", I+"Bitset.inl: Intersects", I+"Bitset.inl: operator&, operator|, operator^, operator~"])
p("C157", "The functions for integers also work on bool",
  "With bool, which the templates accept as an integer type, the bit functions affect exactly the addressed bit, counting, comparing, powers and reversal give the result of the number 0 or 1, a bitset made from a bool gives it back, AppendBits appends the bool followed by zeros, and To<bool> gives the number the bits denote.",
  "every bool, every bit index that passes the assertion, every bitset and block width", "A conversion to bool is a comparison with 0 and not a reduction modulo a power of two, and BitCount<bool> is 8; the tests do not instantiate the templates with bool.",
  [I+"MathUtils.inl: SetBit, ClearBit, ToggleBit, TestBit, ReverseBits, CountBits, NumberEquals, IntegralPow, MultiplyAdd", I+"Bitset.inl: Bitset(T), To, AppendBits"])
p("C158", "The bit functions of MathUtils agree with one another",
  "Reversing bits or bytes keeps the number of bits set and the two reversals commute; the first bit of the reversal is the last bit; a number is a power of two exactly when one bit is set and exactly when its first bit is its last; IntegralLog2 is the index of the last bit, IntegralLog2Pot of a power of two that of the first; RoundToPow2 and GetNearestPowerOfTwo agree, give a power of two and are idempotent; setting, clearing and toggling a bit change the count by that bit.",
  "every unsigned integer type, every value (rounding: values up to the highest power of two), every bit", "The functions are implemented by unrelated means (builtins, tables, De Bruijn multiplication, loops, masks); the tests check each on chosen values and never one against the other.",
  [I+"MathUtils.inl: CountBits, FindFirstBit, FindLastBit, ReverseBits, ByteSwap, IsPow2, IntegralLog2, IntegralLog2Pot, RoundToPow2, GetNearestPowerOfTwo, SetBit, ClearBit, ToggleBit"])
p("C159", "The functions for integers refuse other types",
  "A call of a MathUtils function constrained to std::integral compiles for every integer type and for no floating point type or enumeration, so that no argument is given a meaning it does not have.",
  "every constrained function of one value, every kind of argument type, with and without standard concepts; Align: all offsets and alignments; IntegralLog2: all floats", "Without concepts (C++17, the language of the build) the constraint is an unconstrained typename, and whether a call is refused depends on the operations in the body; tests cannot contain calls that do not compile and do not try those that should not.",
  [I+"Concepts.hpp", I+"MathUtils.hpp: functions constrained with NAZARA_STD_CONCEPT_T(std::integral)", I+"MathUtils.inl: Align, IntegralLog2, IntegralLog2Pot", I+"xmake.lua: set_languages"])
out = os.path.join(os.path.dirname(os.path.abspath(__file__)), "..", "properties.jsonl")
with open(out, "w") as f:
    for x in P:
        f.write(json.dumps(x, ensure_ascii=False) + "\n")
print(len(P))
