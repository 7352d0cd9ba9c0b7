import json
P=[]
V="enum_vec/src/vec_u32/mod.rs"
L="enum_like/src/lib.rs"
D="enum_like_derive/src/lib.rs"
S="enum_set/src/lib.rs"
def p(title, statement, quantifier, why, anchors):
    P.append(dict(id="C%02d"%(len(P)+1), title=title, statement=statement, quantifier=quantifier, why_tests_cant=why, anchors=anchors))

p("Element width is exactly the minimum number of bits",
  "For every element type that compiles with a given EnumVec storage, the packed width b satisfies 2^(b-1) < NUM_VARIANTS <= 2^b and at least one element fits in a storage block; types with at most one variant, or (8/16/32-bit storages) more than 2^blocksize variants, are rejected at compile time.",
  "every NUM_VARIANTS and every storage variant (u8,u16,u32,u64,u128,smallvec)",
  "the number of variants ranges over all of usize; tests only use a few small enums",
  [V+": BITS_PER_ELEM, ERROR_TOO_MANY_VARIANTS, ERROR_ZERO_SIZED, ELEMS_PER_BLOCK", "enum_vec/src/vec_u64/mod.rs: BITS_PER_ELEM"])
p("set/get: a write is read back and touches nothing else",
  "After v.set(i, x) with i < len: get(i) = Some(x), get(j) is unchanged for every j != i, len is unchanged. For i >= len, set panics and the vector is unchanged; get returns None.",
  "every vector contents, index, value, lawful element type, storage width, and whatever stale bits the storage holds",
  "bit-packing faults show only at particular widths, offsets and stale bit patterns",
  [V+": get, set, get_raw, set_raw, get_raw_unchecked, set_raw_unchecked, block_index"])
p("push/pop/len behave as a stack",
  "push(x) appends x (len grows by one, all earlier elements unchanged, storage grows when and only when needed); pop returns the last element and removes exactly it, or None on an empty vector leaving it unchanged.",
  "every reachable vector and value, across block boundaries and after any truncation/reserve that leaves extra storage",
  "growth logic depends on len modulo elements-per-block and the storage length left by earlier operations",
  [V+": push, pop, grow_if_needed, blocks_for_elements, len, is_empty"])
p("insert behaves as Vec::insert",
  "insert(index, x) with index <= len puts x at index, shifts the elements at and after index one place up, keeps those before it. With index > len it should panic as Vec::insert does (the code appends instead).",
  "every vector, index, value, element width and storage width, whatever the stale bits in storage",
  "the shift crosses block boundaries with wasted high bits; there are thousands of (width, length, index) cases",
  [V+": insert"])
p("remove behaves as Vec::remove",
  "remove(index) with index < len returns the element at index, shifts the later ones one place down, keeps the earlier ones; with index >= len it panics leaving the vector unchanged.",
  "every vector and index, element width, storage width and every history that produced the vector",
  "the outcome depends on unused high bits of blocks left behind by earlier operations",
  [V+": remove"])
p("swap and swap_remove",
  "swap(a,b) exchanges exactly the two elements; swap_remove(i) returns element i, puts the last element at i and shortens by one; out-of-range indices (and swap_remove on an empty vector) panic leaving the vector unchanged.",
  "every vector, indices (including equal ones and the last)", "index coincidences and packing offsets are unbounded",
  [V+": swap, swap_remove"])
p("truncate, clear and resize",
  "truncate(n) keeps the first min(n,len) elements; clear empties; resize(n,x) truncates, or pads with copies of x up to n elements, for every padding amount (both the slow path and the block-fill path).",
  "every vector, n, x, element width", "the block-fill fast path starts at more than 4 blocks of padding and depends on the alignment of len and on width not dividing the block",
  [V+": truncate, clear, resize, extend_with_value"])
p("retain filters in order, calling the predicate once per element",
  "retain(f) calls f exactly once on each element in index order, threading the closure's state, and keeps precisely those for which it returned true, in order. If f panics the vector is still valid, its length unchanged, made of the kept prefix followed by the not-yet-overwritten tail.",
  "every vector, every stateful predicate, every crash point", "predicates and panic points are unbounded",
  [V+": retain"])
p("append moves everything and empties the source",
  "a.append(&mut b) makes a the concatenation a++b and leaves b empty (len 0, reusable).",
  "every pair of vectors, both alignment cases, every storage variant", "the two code paths depend on a.len() modulo elements per block; the documentation example exercises only one",
  [V+": append, fix_storage", "enum_vec/src/smallvec_u32/mod.rs: append"])
p("split_off divides the vector in two usable vectors",
  "v.split_off(at) with at <= len returns a vector holding the elements from at on, which can be read, cloned and modified, and leaves v with the first at elements; at > len panics.",
  "every vector and split point", "no test calls it; failure is undefined behaviour that may look right",
  [V+": split_off, with_capacity"])
p("from_elem / enum_vec![x; n] contents",
  "EnumVec::from_elem(x, n) has length n and every element equal to x, for every n and width.",
  "every n, x, element width and storage width", "the block fill pattern is built by bit doubling, and must be right for widths that do not divide the block",
  [V+": from_elem, extend_with_value", "enum_vec/src/lib.rs: enum_vec!"])
p("Block fill uses memory proportional to the number of elements",
  "from_elem(x, n) and resize need (and keep allocated) a number of storage blocks proportional to n.",
  "every n", "small tests finish quickly even when the memory is quadratic",
  [V+": extend_with_value (storage.resize loop)"])
p("extend / from_iter / from_slice / From<Vec> append exactly the iterator's items",
  "For every iterator whose size_hint lower bound is honest, extend leaves the old elements followed by all the items in order; from_iter, from_slice, From<Vec> and enum_vec![a, b, ..] hold exactly the items.",
  "every vector, item sequence and honest size hint (exact, zero, anything in between)", "size hints split the work between two loops in unboundedly many ways",
  [V+": Extend::extend, FromIterator::from_iter, from_slice, From<Vec<T>>"])
p("extend is panic safe",
  "If the iterator panics, or yields fewer items than its size_hint promised, the vector afterwards holds the old elements followed by the items already yielded (as Vec::extend does) and is memory-safe to use.",
  "every vector, iterator and panic point", "crash points inside user iterators are unbounded",
  [V+": Extend::extend"])
p("Round trip with Vec and iteration order",
  "EnumVec::from(v).to_vec() == v, into() likewise; iter() and into_iter() yield the elements in index order.",
  "every Vec and element type", "unbounded lengths and widths",
  [V+": to_vec, From<Vec<T>>, Into<Vec<T>>, IntoIterator, iter"])
p("Iterators obey the double-ended protocol",
  "Under any interleaving of next, next_back, nth, size_hint (len) and count, the borrowing and the owning iterator yield each element at most once, front calls in order, back calls in reverse order, size_hint is exact and they stay exhausted.",
  "every vector and every sequence of iterator calls (including huge nth arguments)", "call sequences are unbounded",
  [V+": EnumVecIter, EnumVecIntoIter"])
p("any is exact",
  "any(x) is true iff some element equals x.",
  "every vector, x, element width, storage width, and any stale or unused bits", "SWAR bit tricks have data-dependent false positives/negatives",
  [V+": any"])
p("all is exact",
  "all(x) is true iff every element equals x (true on the empty vector).",
  "every vector, x, element width, storage width, and any stale or unused bits", "mask errors need particular widths and garbage",
  [V+": all"])
p("Equality depends on the elements only",
  "a == b iff they have the same length and elements, whatever their capacity, storage length and stale bits; hence it is an equivalence relation.",
  "every pair of vectors and histories", "stale storage differs between histories",
  [V+": PartialEq::eq"])
p("Equal vectors hash equally",
  "The sequence fed to the hasher is a function of the elements only (their discriminants in order), so a == b implies equal hashes.",
  "every pair of vectors and histories, any Hasher", "stale storage differs between histories",
  [V+": Hash::hash"])
p("Memory safety of the safe API",
  "No sequence of calls to the safe API, with any closures, iterators and caught panics, ever accesses storage outside its initialised length.",
  "every history of safe calls on any number of vectors, every EnumLike implementation, even one that breaks the contract of the trait", "histories are unbounded and the failing access is undefined behaviour that tests may not notice",
  [V+": all pub fns, get_raw_unchecked, set_raw_unchecked"])
p("Any history of operations agrees with Vec<T>",
  "Running any program of API calls on a pool of EnumVecs yields call by call the same results as running it on Vec<T>s.",
  "every program (sequence of calls on any number of vectors), lawful element type, storage", "the state space of packed storages and histories is unbounded",
  [V+": EnumVec"])
p("Storage choice is not observable",
  "The same program gives the same results with every storage block size (u8..u128, smallvec), every usize width and both overflow-check settings (debug/release).",
  "every program and every pair of configurations admitting the element type", "pairs of configurations times programs",
  ["enum_vec/gen.sh", V, "enum_vec/src/vec_u8/mod.rs", "enum_vec/src/vec_u128/mod.rs", "enum_vec/src/smallvec_u32/mod.rs"])
p("clone is equal and independent",
  "A clone compares equal to the original, and later operations on either do not affect the other.",
  "every vector and later history", "histories unbounded",
  [V+": #[derive(Clone)]"])
p("capacity, with_capacity, shrink_to_fit",
  "with_capacity(n) is empty with capacity() >= n; capacity() >= len() always; shrink_to_fit keeps the contents and leaves exactly ceil(len/elems per block) blocks.",
  "every vector, n, element width, any allocator growth policy", "usize overflow boundaries and growth policies",
  [V+": with_capacity, capacity, shrink_to_fit, fix_storage, blocks_for_elements"])
p("reserve makes room and cannot lose elements",
  "reserve(k) never drops elements: for every k it either returns with contents intact and capacity() >= len + k, or panics with contents intact (when len + k overflows), in debug and release builds.",
  "every vector, every k up to usize::MAX, both overflow modes", "needs k at the very end of the usize range and release arithmetic",
  [V+": reserve"])
p("with capacity() room no operation reallocates",
  "While len + k <= capacity(), pushing or extending by k elements does not change the allocation.",
  "every vector and k", "allocation is not observed by unit tests",
  [V+": capacity, reserve, grow_if_needed, Extend::extend"])
p("for_each maps in place",
  "for_each(f) replaces every element, in index order, by the value f leaves in it, threading closure state; if f panics, exactly the earlier elements have been replaced and length is unchanged.",
  "every vector, stateful closure, crash point", "closures unbounded",
  [V+": for_each"])
p("Types wider than 32 bits with 64/128-bit storage",
  "A type with more than 2^32 variants stored in a 64- or 128-bit EnumVec reads back what was written (README: larger items need the wider storages), or is rejected at compile time.",
  "every NUM_VARIANTS above 2^32", "no test uses such a type",
  ["enum_vec/src/vec_u64/mod.rs: BITS_PER_ELEM, ELEMENT_MASK", "enum_vec/src/vec_u128/mod.rs", "enum_vec/gen.sh"])
p("EnumLike contract for every provided implementation",
  "For (), bool, Option, Result, tuples, arrays and all nestings: to_discr(x) < NUM_VARIANTS, from_discr(to_discr(x)) = x, every d < NUM_VARIANTS is the discriminant of exactly one value, and nothing overflows or panics whenever NUM_VARIANTS fits a usize.",
  "every type built from the provided implementations and every value", "the closure of the type constructors is infinite",
  [L+": EnumLike impls, tuple_impls!, array_impls!"])
p("Derived EnumLike for enums is lawful",
  "#[derive(EnumLike)] on an enum whose fields are lawful gives a lawful implementation; NUM_VARIANTS is the sum over variants of the product of field counts; C-like enums are numbered in declaration order ignoring explicit discriminants; data-less variants come first in mixed enums.",
  "every enum declaration (any number of variants, fields, nesting)", "declarations are unbounded; the macro is tested on a handful",
  [D+": all_variants_of, MatchArm, generate_rusty_enum_code, generate_c_enum_code"])
p("Derived EnumLike for structs is lawful",
  "#[derive(EnumLike)] on a struct (unit, tuple or named) gives a lawful implementation with mixed-radix numbering of the fields, first field least significant.",
  "every struct declaration", "declarations are unbounded",
  [D+": generate_struct_with_fields, from_discr_body, to_discr_body, num_variants_product"])
p("values() enumerates every value exactly once",
  "T::values() yields, in discriminant order, every value of T exactly once, then None forever; count and size_hint give the exact number remaining at any point, last the final one.",
  "every lawful type that uses all its numbers (all provided and derived ones do; with an unused number next panics there) and any number of calls already made", "types unbounded",
  [L+": Values, EnumValues"])
p("Values::nth follows the Iterator contract",
  "nth(n) skips n values and returns the next, or None (exhausting the iterator) when fewer than n+1 remain, for every n including huge ones, in debug and release builds.",
  "every iterator position and every n: usize", "needs n near usize::MAX and release arithmetic",
  [L+": Values::nth"])
p("PackedU8/PackedU16 round trip",
  "PackedU8::new(x).get() == x whenever it compiles (NUM_VARIANTS <= 256), likewise PackedU16 (65536); equality of packed values is equality of the originals; larger types are rejected at compile time.",
  "every type and value", "all types up to the limit",
  [L+": PackedU8, PackedU16"])
p("EnumSet membership laws",
  "insert/remove/contains/len/is_empty/clear/extend behave as a mathematical set of values: insert returns whether x was absent, remove whether it was present, other members unaffected.",
  "every history of operations on sets over any lawful type", "histories unbounded",
  [S+": insert, remove, contains, len, is_empty, clear, Extend, FromIterator"])
p("EnumSet algebra and iteration",
  "union, intersection, difference and symmetric_difference iterators, their in-place versions, is_subset/is_superset/is_disjoint agree with set theory; iter() yields each member exactly once in discriminant order.",
  "every pair of sets over any lawful type", "unbounded pairs",
  [S+": union*, intersect*, difference*, symmetric_difference*, is_*, iter, WrapIter"])
p("Block storage efficiency",
  "An EnumVec holding n elements of b bits after shrink_to_fit occupies exactly ceil(n / floor(W/b)) blocks, and per element never needs more bits than the smallest of u8/u16/u32 that can hold it (README: always equal or better than a Vec).",
  "every n, b, W", "unbounded sizes",
  [V+": blocks_for_elements, fix_storage", "README.md: Memory efficiency"])
p("Stale data beyond the length is never observable through safe calls",
  "Two vectors with the same elements are indistinguishable by any later program of safe calls, whatever stale elements, unused bits, storage length or capacity they carry.",
  "every pair of vectors with equal elements and every later program", "stale bits are invisible to direct inspection and vary with history",
  [V+": EnumVec (storage: contents undefined beyond len)"])
p("Contract of the unsafe raw accessors",
  "For i below the number of elements the initialised storage holds, set_raw_unchecked(i,d) with d < 2^b then get_raw_unchecked(i) gives d, and no other slot changes; set_len(n) within storage exposes exactly those slots (reserve + set_raw_unchecked + set_len is equivalent to push).",
  "every vector, slot and d", "offsets and widths unbounded",
  [V+": get_raw_unchecked, set_raw_unchecked, set_len, storage_mut"])
p("Vectors near the usize limit keep all their elements",
  "shrink_to_fit, append and remove keep elements intact up to the largest length usize can express (reachable on 32-bit targets with 1-bit elements).",
  "every length up to usize::MAX", "needs half a gigabyte vectors on a 32-bit target",
  [V+": blocks_for_elements (saturating_add), fix_storage, remove"])
p("A panic leaves every vector usable",
  "After any panicking call (index out of range, capacity overflow, user closure or iterator panic) the vector still satisfies len() <= storage, reads in range succeed without undefined behaviour, and operations continue to work.",
  "every call, state and panic point", "panic points unbounded",
  [V+": all &mut self methods"])
p("Iterating an EnumSet never panics",
  "However the set was obtained (new, from_iter, from_bit_set, any in-place operation), iter() yields exactly len() values and then None, and does not panic.",
  "every set over any lawful type, every history", "from_bit_set accepts any bit set, histories unbounded",
  [S+": from_bit_set, iter, WrapIter"])
p("Calls fail for lack of memory only when they ask for too much",
  "push, insert, extend, from_iter, reserve, with_capacity, append and clone return (no capacity overflow panic, no abort) whenever the allocator can grant the number of blocks their result needs; from_elem and resize whenever it can grant the square of the number of blocks they fill; no other call ever fails for lack of memory.",
  "every vector, call and program, every allocator limit and growth policy", "needs every size up to the limit, and unlimited programs",
  [V+": push, insert, extend, reserve, with_capacity, append, extend_with_value, clone"])
p("The packed layout seen through storage() and storage_mut()",
  "With b the minimum width and P = floor(W/b), element i is the number in bits b*(i mod P) .. b*(i mod P)+b-1 of storage()[i / P]; assigning a block through storage_mut() changes exactly the elements of that block, to the groups of bits of the new block; copying the blocks of storage() and the length into an empty vector copies the elements.",
  "every vector, block number and block value, every storage and element type", "unbounded lengths, 2^W block values",
  [V+": storage, storage_mut, set_len, block_index, get_raw_unchecked"])
p("The derive macro's output means the documented numbering",
  "For every struct and enum declaration, the tokens #[derive(EnumLike)] emits, read with Rust's operator precedence and run in usize arithmetic in any build profile, are an implementation whose NUM_VARIANTS is the number of values, whose to_discr and from_discr are mutually inverse, and whose numbers are those of C31/C32: independent of variant, field and pattern names and of tuple or brace syntax. Unions and variants V() / V {} are rejected.",
  "every declaration: any number and order of variants and fields, any field types", "declarations are unbounded; macro tests cover a few",
  [D+": derive_enum_like, generate_enum_code, generate_rusty_enum_code, generate_c_enum_code, generate_struct_code, all_variants_of, MatchArm, num_variants_product, from_discr_body, to_discr_body"])
p("The tuple and array implementations work for every length and element type",
  "Tuples of 1 to 32 components and arrays of 0 to 32 elements implement EnumLike for every element type that does (longer ones do not). from_discr inverts to_discr, numbers count up with the first component least significant, and both conversions move every element exactly once: nothing uninitialised is used or dropped, whether or not the element type is Copy or needs to be dropped (the trait does not require Copy, and EnumSet accepts such types).",
  "every tuple and array type, nested in any way, every value, every choice of which user types implement Drop", "types are unbounded; a wrong table line is visible only at its length; undefined behaviour passes tests",
  ["enum_like/src/lib.rs: tuple_impls, array_impls, reverse_idx_a, reverse_idx_b, reverse_idx_c"])
p("Any history of EnumSet calls answers as mathematical sets do",
  "A client that creates any number of EnumSets (new, FromIterator, clone, from_bit_set of numbers of values) and picks each call from all answers so far (insert, remove, clear, extend with panicking iterators, *_with, contains, len, is_empty, ==, cmp, Hash, get_ref/into_bit_set, subset/superset/disjoint, any number of next() on iter/union/intersection/difference/symmetric_difference) sees exactly the answers of sets of T, iterated in the order of to_discr, ordered by cmp as their lists of members, hashed alike if equal; no call panics unless the caller's own iterator does, and sets never influence each other.",
  "every element type obeying the trait's contract, every adaptive client, any number of sets and calls", "histories and element types are unbounded",
  ["enum_set/src/lib.rs: EnumSet, WrapIter"])
p("Only growing calls and shrink_to_fit change the memory a vector occupies",
  "pop, remove, swap, swap_remove, truncate, clear, get, set, retain, for_each, any, all, ==, hash, to_vec, iteration, len and is_empty leave capacity() of every vector unchanged, also when they panic. No call other than shrink_to_fit makes a capacity() smaller. With a container that doubles when it grows, a vector that is not shrunk is moved to a new allocation at most as often as its capacity can be doubled, and n pushes onto a new vector occupy at most about twice the blocks needed, reallocate O(log n) times and copy O(n) blocks in total.",
  "every call in every state, every program, every growth policy (doubling for the last sentence)", "programs are unbounded; capacity after a panic or after long histories",
  [V+": all methods", V+": capacity, shrink_to_fit, push, grow_if_needed"])
p("Debug prints what Vec and sets print",
  "format!(\"{:?}\", v) and format!(\"{:#?}\", v) of an EnumVec give exactly the text Vec gives for the same elements, whatever text the elements' own Debug writes; an EnumSet prints its elements, each once, in the order of to_discr, between braces. If an element's Debug fails, the text stops there and the error is returned.",
  "every vector and set, every Debug implementation of the elements (any text, any number of write_str pieces), both forms", "texts and lengths are unbounded; indentation depends on how text is split into pieces",
  [V+": impl Debug for EnumVec", "enum_set/src/lib.rs: impl Debug for EnumSet"])
p("A SmallEnumVec uses the heap only when it outgrows its inline storage",
  "A smallvec_u32 EnumVec holding at most 4 * floor(32/b) elements of b bits (128 of 1 bit, 64 of 2 bits, 32 of 4 bits) lives in its inline storage: no call that leaves the vectors within that size allocates, so programs that keep to it behave as on Vec even if every allocation would fail.",
  "every program and history, every element type, every allocator and growth policy", "histories are unbounded; allocation failure is not tested",
  ["README.md: SmallEnumVec", "enum_vec/src/smallvec_u32/mod.rs: Storage, push, reserve, extend, with_capacity, append"])
p("The memory efficiency figures of the documentation",
  "A block of W bits holding elements of n bits wastes W % n bits, so the efficiency is 1 - (W % n)/W; it is 100% exactly for n = 1, 2, 4, 8, 16, 32; and the largest element size at which an EnumVec is better than a Vec of the smallest integer type is 4, 4, 11, 22, 42 bits for 8, 16, 32, 64, 128-bit storage.",
  "every element type and every storage", "the table lists a few widths only; a claim about all types",
  ["README.md: Memory efficiency", V+": ELEMENTS_PER_BLOCK, ELEMENT_BITS"])
p("Unsafe accessors used within their contract, mixed with safe calls",
  "A client that mixes safe calls with get_raw_unchecked, set_raw_unchecked, set_len and storage_mut()[w] = b, picking each call from all results so far, sees Vec's behaviour on the elements and exactly the numbers it wrote, provided: slots are used only up to the length, to a previous length, or to what reserve made room for; numbers written fit an element; and on a vector that is half written (some element not a number of a value) it makes no safe call until it has completed it. Memory safety needs only indices and lengths within the blocks of storage() and numbers that fit an element. reserve, set_len and a loop of set_raw_unchecked is extend.",
  "every adaptive client keeping the contract (safe calls other than those excluded in C22), any number of vectors and calls, every storage", "histories mixing the two kinds of calls are unbounded; undefined behaviour passes tests",
  [V+": get_raw_unchecked, set_raw_unchecked, set_len, storage_mut, reserve"])
p("Arbitrary user code cannot make a vector unsafe",
  "to_discr, from_discr, Clone, closures, iterators (with any size_hint), hashers and loop bodies are safe code of the user and may do anything safe code can: panic half way, keep state, give different answers each time, answer any usize whatever NUM_VARIANTS says, never finish. No client that catches the panics and goes on using the same vectors runs into undefined behaviour, and every vector stays valid. With pure user code the calls are those of C01-C29.",
  "every user code, every adaptive client (reserve amounts of C26, no split_off or Vec-storage append), any number of vectors and calls, every storage", "tests use lawful derives; user code and the moment of a panic range over all programs",
  [V+": get, set, push, pop, insert, remove, swap_remove, retain, resize, extend_with_value, extend, any, all, for_each, iter, hash", "enum_like/src/lib.rs: EnumLike"])
p("A panic in user code leaves the vector as Vec would",
  "If to_discr, from_discr, Clone, a closure or an iterator panics at any moment (and otherwise obeys the contract), every call either returns what Vec returns or panics, and after the panic the vector holds: unchanged elements for get, set, pop, remove, any, all, iteration; the elements swapped but none lost for swap_remove; for retain and for_each the items handled so far and the untouched rest; the old elements for push and insert; the old elements and the items taken for extend; the old elements and copies for resize.",
  "every truthful user code, every moment of panic, every vector and argument, every storage", "the moment of the panic and the stale bits exposed depend on history",
  [V+": push, insert, extend, resize, retain, for_each, swap_remove, remove, pop, set, get"])
p("Only the numbers of the elements matter",
  "Two element types with equally many values, whose values are numbered alike (and that panic at the same unused numbers), are interchangeable: every call, program and adaptive client with corresponding elements gets corresponding answers -- the same panics, aborts and failures -- and leaves bit for bit the same storage, length and capacity. So EnumVec<(bool, bool)> and an EnumVec of a four-variant enum are the same vector.",
  "every pair of element types with a correspondence of values, every vector (also half-written ones), every call, program and client, every storage", "a statement about all element types and about pairs of runs",
  [V+": all methods", "enum_like/src/lib.rs: EnumLike"])
p("A call changes only the storage blocks it must",
  "With P elements per block, set, swap, swap_remove and push change only the blocks of the elements they name (the last for push); insert and remove only those from the index to the end; extend, append and growing resize only those from the old end on; reserve drops only blocks beyond those of the reserved length, shrink_to_fit only those beyond the length; retain and for_each only those in use; every other call none; and no call those of a vector it is not given. This holds bit for bit, also for unused bits, and also when the call panics, fails or aborts. An element in another block reads the same afterwards, and a block no call of a program works on keeps its bits through the whole program. Reading calls look at the length and the blocks in use only, bit for bit nothing else.",
  "every vector in every state, every call with every argument, every element type (lawful or not), every storage, profile and allocator, every outcome", "lengths, block numbers and stale bits are unbounded; a write to a neighbouring block is visible only later",
  [V+": all &mut self methods"])
p("Debug and release builds do the same until an overflow panic",
  "A method of a release build does exactly what it does in a debug build -- result, panic, contents, unused bits, length and capacity -- unless the debug build panics with an arithmetic overflow. So a program none of whose calls panics in a debug build behaves identically in a release build. The same holds where the element type, closures, iterators, Clone and hashers are arbitrary code with state that may panic.",
  "every vector in any state (valid or not), every method and argument, every program and adaptive client, every element type (lawful or not), every storage, target and allocator", "tests run in one profile; wrapping is silent in the other and shows only on particular values",
  [V+": all methods", "enum_vec/src/*/mod.rs"])
p("The allocator, the growth policy and the container are not observable",
  "How a container grows and shrinks, what the allocator grants, and whether it is SmallVec or Vec, shows in the capacity only: two vectors with the same storage blocks and length, on different such containers, get the same answers from every call -- results, panics, undefined behaviour -- and keep the same blocks bit for bit, unless one of them runs out of memory. So does every program and adaptive client up to the first failure for lack of memory. Only append distinguishes SmallVec from Vec. The same holds where the element type, closures, iterators, Clone and hashers are arbitrary code with state that may panic: it is called with the same arguments and ends in the same state. In particular a clone, or a vector made with_capacity, can stand in for the original or a new vector: no call but capacity() can tell.",
  "every pair of containers (any growth and shrink function, any allocator limit), every vector in any state, every call, program and adaptive client, every element type (lawful or not), every block width, pointer width and profile", "tests run over one allocator and one version of std and smallvec; a dependence on the capacity shows only where they grow differently",
  [V+": all methods", "enum_vec/src/smallvec_u32/mod.rs"])
with open('/verif/properties.jsonl','w') as f:
    for x in P: f.write(json.dumps(x)+"\n")
print(len(P))
