{"id": "C01", "title": "Element width is exactly the minimum number of bits", "statement": "For every element type that compiles with a given EnumVec storage, the packed width b satisfies 2^(b-1) < NUM_VARIANTS <= 2^b and at least one element fits in a storage block; types with at most one variant, or (8/16/32-bit storages) more than 2^blocksize variants, are rejected at compile time.", "quantifier": "every NUM_VARIANTS and every storage variant (u8,u16,u32,u64,u128,smallvec)", "why_tests_cant": "the number of variants ranges over all of usize; tests only use a few small enums", "anchors": ["enum_vec/src/vec_u32/mod.rs: BITS_PER_ELEM, ERROR_TOO_MANY_VARIANTS, ERROR_ZERO_SIZED, ELEMS_PER_BLOCK", "enum_vec/src/vec_u64/mod.rs: BITS_PER_ELEM"]}
{"id": "C02", "title": "set/get: a write is read back and touches nothing else", "statement": "After v.set(i, x) with i < len: get(i) = Some(x), get(j) is unchanged for every j != i, len is unchanged. For i >= len, set panics and the vector is unchanged; get returns None.", "quantifier": "every vector contents, index, value, lawful element type, storage width, and whatever stale bits the storage holds", "why_tests_cant": "bit-packing faults show only at particular widths, offsets and stale bit patterns", "anchors": ["enum_vec/src/vec_u32/mod.rs: get, set, get_raw, set_raw, get_raw_unchecked, set_raw_unchecked, block_index"]}
{"id": "C03", "title": "push/pop/len behave as a stack", "statement": "push(x) appends x (len grows by one, all earlier elements unchanged, storage grows when and only when needed); pop returns the last element and removes exactly it, or None on an empty vector leaving it unchanged.", "quantifier": "every reachable vector and value, across block boundaries and after any truncation/reserve that leaves extra storage", "why_tests_cant": "growth logic depends on len modulo elements-per-block and the storage length left by earlier operations", "anchors": ["enum_vec/src/vec_u32/mod.rs: push, pop, grow_if_needed, blocks_for_elements, len, is_empty"]}
{"id": "C04", "title": "insert behaves as Vec::insert", "statement": "insert(index, x) with index <= len puts x at index, shifts the elements at and after index one place up, keeps those before it. With index > len it should panic as Vec::insert does (the code appends instead).", "quantifier": "every vector, index, value, element width and storage width, whatever the stale bits in storage", "why_tests_cant": "the shift crosses block boundaries with wasted high bits; there are thousands of (width, length, index) cases", "anchors": ["enum_vec/src/vec_u32/mod.rs: insert"]}
{"id": "C05", "title": "remove behaves as Vec::remove", "statement": "remove(index) with index < len returns the element at index, shifts the later ones one place down, keeps the earlier ones; with index >= len it panics leaving the vector unchanged.", "quantifier": "every vector and index, element width, storage width and every history that produced the vector", "why_tests_cant": "the outcome depends on unused high bits of blocks left behind by earlier operations", "anchors": ["enum_vec/src/vec_u32/mod.rs: remove"]}
{"id": "C06", "title": "swap and swap_remove", "statement": "swap(a,b) exchanges exactly the two elements; swap_remove(i) returns element i, puts the last element at i and shortens by one; out-of-range indices (and swap_remove on an empty vector) panic leaving the vector unchanged.", "quantifier": "every vector, indices (including equal ones and the last)", "why_tests_cant": "index coincidences and packing offsets are unbounded", "anchors": ["enum_vec/src/vec_u32/mod.rs: swap, swap_remove"]}
{"id": "C07", "title": "truncate, clear and resize", "statement": "truncate(n) keeps the first min(n,len) elements; clear empties; resize(n,x) truncates, or pads with copies of x up to n elements, for every padding amount (both the slow path and the block-fill path).", "quantifier": "every vector, n, x, element width", "why_tests_cant": "the block-fill fast path starts at more than 4 blocks of padding and depends on the alignment of len and on width not dividing the block", "anchors": ["enum_vec/src/vec_u32/mod.rs: truncate, clear, resize, extend_with_value"]}
{"id": "C08", "title": "retain filters in order, calling the predicate once per element", "statement": "retain(f) calls f exactly once on each element in index order, threading the closure's state, and keeps precisely those for which it returned true, in order. If f panics the vector is still valid, its length unchanged, made of the kept prefix followed by the not-yet-overwritten tail.", "quantifier": "every vector, every stateful predicate, every crash point", "why_tests_cant": "predicates and panic points are unbounded", "anchors": ["enum_vec/src/vec_u32/mod.rs: retain"]}
{"id": "C09", "title": "append moves everything and empties the source", "statement": "a.append(&mut b) makes a the concatenation a++b and leaves b empty (len 0, reusable).", "quantifier": "every pair of vectors, both alignment cases, every storage variant", "why_tests_cant": "the two code paths depend on a.len() modulo elements per block; the documentation example exercises only one", "anchors": ["enum_vec/src/vec_u32/mod.rs: append, fix_storage", "enum_vec/src/smallvec_u32/mod.rs: append"]}
{"id": "C10", "title": "split_off divides the vector in two usable vectors", "statement": "v.split_off(at) with at <= len returns a vector holding the elements from at on, which can be read, cloned and modified, and leaves v with the first at elements; at > len panics.", "quantifier": "every vector and split point", "why_tests_cant": "no test calls it; failure is undefined behaviour that may look right", "anchors": ["enum_vec/src/vec_u32/mod.rs: split_off, with_capacity"]}
{"id": "C11", "title": "from_elem / enum_vec![x; n] contents", "statement": "EnumVec::from_elem(x, n) has length n and every element equal to x, for every n and width.", "quantifier": "every n, x, element width and storage width", "why_tests_cant": "the block fill pattern is built by bit doubling, and must be right for widths that do not divide the block", "anchors": ["enum_vec/src/vec_u32/mod.rs: from_elem, extend_with_value", "enum_vec/src/lib.rs: enum_vec!"]}
{"id": "C12", "title": "Block fill uses memory proportional to the number of elements", "statement": "from_elem(x, n) and resize need (and keep allocated) a number of storage blocks proportional to n.", "quantifier": "every n", "why_tests_cant": "small tests finish quickly even when the memory is quadratic", "anchors": ["enum_vec/src/vec_u32/mod.rs: extend_with_value (storage.resize loop)"]}
{"id": "C13", "title": "extend / from_iter / from_slice / From<Vec> append exactly the iterator's items", "statement": "For every iterator whose size_hint lower bound is honest, extend leaves the old elements followed by all the items in order; from_iter, from_slice, From<Vec> and enum_vec![a, b, ..] hold exactly the items.", "quantifier": "every vector, item sequence and honest size hint (exact, zero, anything in between)", "why_tests_cant": "size hints split the work between two loops in unboundedly many ways", "anchors": ["enum_vec/src/vec_u32/mod.rs: Extend::extend, FromIterator::from_iter, from_slice, From<Vec<T>>"]}
{"id": "C14", "title": "extend is panic safe", "statement": "If the iterator panics, or yields fewer items than its size_hint promised, the vector afterwards holds the old elements followed by the items already yielded (as Vec::extend does) and is memory-safe to use.", "quantifier": "every vector, iterator and panic point", "why_tests_cant": "crash points inside user iterators are unbounded", "anchors": ["enum_vec/src/vec_u32/mod.rs: Extend::extend"]}
{"id": "C15", "title": "Round trip with Vec and iteration order", "statement": "EnumVec::from(v).to_vec() == v, into() likewise; iter() and into_iter() yield the elements in index order.", "quantifier": "every Vec and element type", "why_tests_cant": "unbounded lengths and widths", "anchors": ["enum_vec/src/vec_u32/mod.rs: to_vec, From<Vec<T>>, Into<Vec<T>>, IntoIterator, iter"]}
{"id": "C16", "title": "Iterators obey the double-ended protocol", "statement": "Under any interleaving of next, next_back, nth, size_hint (len) and count, the borrowing and the owning iterator yield each element at most once, front calls in order, back calls in reverse order, size_hint is exact and they stay exhausted.", "quantifier": "every vector and every sequence of iterator calls (including huge nth arguments)", "why_tests_cant": "call sequences are unbounded", "anchors": ["enum_vec/src/vec_u32/mod.rs: EnumVecIter, EnumVecIntoIter"]}
{"id": "C17", "title": "any is exact", "statement": "any(x) is true iff some element equals x.", "quantifier": "every vector, x, element width, storage width, and any stale or unused bits", "why_tests_cant": "SWAR bit tricks have data-dependent false positives/negatives", "anchors": ["enum_vec/src/vec_u32/mod.rs: any"]}
{"id": "C18", "title": "all is exact", "statement": "all(x) is true iff every element equals x (true on the empty vector).", "quantifier": "every vector, x, element width, storage width, and any stale or unused bits", "why_tests_cant": "mask errors need particular widths and garbage", "anchors": ["enum_vec/src/vec_u32/mod.rs: all"]}
{"id": "C19", "title": "Equality depends on the elements only", "statement": "a == b iff they have the same length and elements, whatever their capacity, storage length and stale bits; hence it is an equivalence relation.", "quantifier": "every pair of vectors and histories", "why_tests_cant": "stale storage differs between histories", "anchors": ["enum_vec/src/vec_u32/mod.rs: PartialEq::eq"]}
{"id": "C20", "title": "Equal vectors hash equally", "statement": "The sequence fed to the hasher is a function of the elements only (their discriminants in order), so a == b implies equal hashes.", "quantifier": "every pair of vectors and histories, any Hasher", "why_tests_cant": "stale storage differs between histories", "anchors": ["enum_vec/src/vec_u32/mod.rs: Hash::hash"]}
{"id": "C21", "title": "Memory safety of the safe API", "statement": "No sequence of calls to the safe API, with any closures, iterators and caught panics, ever accesses storage outside its initialised length.", "quantifier": "every history of safe calls on any number of vectors, every EnumLike implementation, even one that breaks the contract of the trait", "why_tests_cant": "histories are unbounded and the failing access is undefined behaviour that tests may not notice", "anchors": ["enum_vec/src/vec_u32/mod.rs: all pub fns, get_raw_unchecked, set_raw_unchecked"]}
{"id": "C22", "title": "Any history of operations agrees with Vec<T>", "statement": "Running any program of API calls on a pool of EnumVecs yields call by call the same results as running it on Vec<T>s.", "quantifier": "every program (sequence of calls on any number of vectors), lawful element type, storage", "why_tests_cant": "the state space of packed storages and histories is unbounded", "anchors": ["enum_vec/src/vec_u32/mod.rs: EnumVec"]}
{"id": "C23", "title": "Storage choice is not observable", "statement": "The same program gives the same results with every storage block size (u8..u128, smallvec), every usize width and both overflow-check settings (debug/release).", "quantifier": "every program and every pair of configurations admitting the element type", "why_tests_cant": "pairs of configurations times programs", "anchors": ["enum_vec/gen.sh", "enum_vec/src/vec_u32/mod.rs", "enum_vec/src/vec_u8/mod.rs", "enum_vec/src/vec_u128/mod.rs", "enum_vec/src/smallvec_u32/mod.rs"]}
{"id": "C24", "title": "clone is equal and independent", "statement": "A clone compares equal to the original, and later operations on either do not affect the other.", "quantifier": "every vector and later history", "why_tests_cant": "histories unbounded", "anchors": ["enum_vec/src/vec_u32/mod.rs: #[derive(Clone)]"]}
{"id": "C25", "title": "capacity, with_capacity, shrink_to_fit", "statement": "with_capacity(n) is empty with capacity() >= n; capacity() >= len() always; shrink_to_fit keeps the contents and leaves exactly ceil(len/elems per block) blocks.", "quantifier": "every vector, n, element width, any allocator growth policy", "why_tests_cant": "usize overflow boundaries and growth policies", "anchors": ["enum_vec/src/vec_u32/mod.rs: with_capacity, capacity, shrink_to_fit, fix_storage, blocks_for_elements"]}
{"id": "C26", "title": "reserve makes room and cannot lose elements", "statement": "reserve(k) never drops elements: for every k it either returns with contents intact and capacity() >= len + k, or panics with contents intact (when len + k overflows), in debug and release builds.", "quantifier": "every vector, every k up to usize::MAX, both overflow modes", "why_tests_cant": "needs k at the very end of the usize range and release arithmetic", "anchors": ["enum_vec/src/vec_u32/mod.rs: reserve"]}
{"id": "C27", "title": "with capacity() room no operation reallocates", "statement": "While len + k <= capacity(), pushing or extending by k elements does not change the allocation.", "quantifier": "every vector and k", "why_tests_cant": "allocation is not observed by unit tests", "anchors": ["enum_vec/src/vec_u32/mod.rs: capacity, reserve, grow_if_needed, Extend::extend"]}
{"id": "C28", "title": "for_each maps in place", "statement": "for_each(f) replaces every element, in index order, by the value f leaves in it, threading closure state; if f panics, exactly the earlier elements have been replaced and length is unchanged.", "quantifier": "every vector, stateful closure, crash point", "why_tests_cant": "closures unbounded", "anchors": ["enum_vec/src/vec_u32/mod.rs: for_each"]}
{"id": "C29", "title": "Types wider than 32 bits with 64/128-bit storage", "statement": "A type with more than 2^32 variants stored in a 64- or 128-bit EnumVec reads back what was written (README: larger items need the wider storages), or is rejected at compile time.", "quantifier": "every NUM_VARIANTS above 2^32", "why_tests_cant": "no test uses such a type", "anchors": ["enum_vec/src/vec_u64/mod.rs: BITS_PER_ELEM, ELEMENT_MASK", "enum_vec/src/vec_u128/mod.rs", "enum_vec/gen.sh"]}
{"id": "C30", "title": "EnumLike contract for every provided implementation", "statement": "For (), bool, Option, Result, tuples, arrays and all nestings: to_discr(x) < NUM_VARIANTS, from_discr(to_discr(x)) = x, every d < NUM_VARIANTS is the discriminant of exactly one value, and nothing overflows or panics whenever NUM_VARIANTS fits a usize.", "quantifier": "every type built from the provided implementations and every value", "why_tests_cant": "the closure of the type constructors is infinite", "anchors": ["enum_like/src/lib.rs: EnumLike impls, tuple_impls!, array_impls!"]}
{"id": "C31", "title": "Derived EnumLike for enums is lawful", "statement": "#[derive(EnumLike)] on an enum whose fields are lawful gives a lawful implementation; NUM_VARIANTS is the sum over variants of the product of field counts; C-like enums are numbered in declaration order ignoring explicit discriminants; data-less variants come first in mixed enums.", "quantifier": "every enum declaration (any number of variants, fields, nesting)", "why_tests_cant": "declarations are unbounded; the macro is tested on a handful", "anchors": ["enum_like_derive/src/lib.rs: all_variants_of, MatchArm, generate_rusty_enum_code, generate_c_enum_code"]}
{"id": "C32", "title": "Derived EnumLike for structs is lawful", "statement": "#[derive(EnumLike)] on a struct (unit, tuple or named) gives a lawful implementation with mixed-radix numbering of the fields, first field least significant.", "quantifier": "every struct declaration", "why_tests_cant": "declarations are unbounded", "anchors": ["enum_like_derive/src/lib.rs: generate_struct_with_fields, from_discr_body, to_discr_body, num_variants_product"]}
{"id": "C33", "title": "values() enumerates every value exactly once", "statement": "T::values() yields, in discriminant order, every value of T exactly once, then None forever; count and size_hint give the exact number remaining at any point, last the final one.", "quantifier": "every lawful type that uses all its numbers (all provided and derived ones do; with an unused number next panics there) and any number of calls already made", "why_tests_cant": "types unbounded", "anchors": ["enum_like/src/lib.rs: Values, EnumValues"]}
{"id": "C34", "title": "Values::nth follows the Iterator contract", "statement": "nth(n) skips n values and returns the next, or None (exhausting the iterator) when fewer than n+1 remain, for every n including huge ones, in debug and release builds.", "quantifier": "every iterator position and every n: usize", "why_tests_cant": "needs n near usize::MAX and release arithmetic", "anchors": ["enum_like/src/lib.rs: Values::nth"]}
{"id": "C35", "title": "PackedU8/PackedU16 round trip", "statement": "PackedU8::new(x).get() == x whenever it compiles (NUM_VARIANTS <= 256), likewise PackedU16 (65536); equality of packed values is equality of the originals; larger types are rejected at compile time.", "quantifier": "every type and value", "why_tests_cant": "all types up to the limit", "anchors": ["enum_like/src/lib.rs: PackedU8, PackedU16"]}
{"id": "C36", "title": "EnumSet membership laws", "statement": "insert/remove/contains/len/is_empty/clear/extend behave as a mathematical set of values: insert returns whether x was absent, remove whether it was present, other members unaffected.", "quantifier": "every history of operations on sets over any lawful type", "why_tests_cant": "histories unbounded", "anchors": ["enum_set/src/lib.rs: insert, remove, contains, len, is_empty, clear, Extend, FromIterator"]}
{"id": "C37", "title": "EnumSet algebra and iteration", "statement": "union, intersection, difference and symmetric_difference iterators, their in-place versions, is_subset/is_superset/is_disjoint agree with set theory; iter() yields each member exactly once in discriminant order.", "quantifier": "every pair of sets over any lawful type", "why_tests_cant": "unbounded pairs", "anchors": ["enum_set/src/lib.rs: union*, intersect*, difference*, symmetric_difference*, is_*, iter, WrapIter"]}
{"id": "C38", "title": "Block storage efficiency", "statement": "An EnumVec holding n elements of b bits after shrink_to_fit occupies exactly ceil(n / floor(W/b)) blocks, and per element never needs more bits than the smallest of u8/u16/u32 that can hold it (README: always equal or better than a Vec).", "quantifier": "every n, b, W", "why_tests_cant": "unbounded sizes", "anchors": ["enum_vec/src/vec_u32/mod.rs: blocks_for_elements, fix_storage", "README.md: Memory efficiency"]}
{"id": "C39", "title": "Stale data beyond the length is never observable through safe calls", "statement": "Two vectors with the same elements are indistinguishable by any later program of safe calls, whatever stale elements, unused bits, storage length or capacity they carry.", "quantifier": "every pair of vectors with equal elements and every later program", "why_tests_cant": "stale bits are invisible to direct inspection and vary with history", "anchors": ["enum_vec/src/vec_u32/mod.rs: EnumVec (storage: contents undefined beyond len)"]}
{"id": "C40", "title": "Contract of the unsafe raw accessors", "statement": "For i below the number of elements the initialised storage holds, set_raw_unchecked(i,d) with d < 2^b then get_raw_unchecked(i) gives d, and no other slot changes; set_len(n) within storage exposes exactly those slots (reserve + set_raw_unchecked + set_len is equivalent to push).", "quantifier": "every vector, slot and d", "why_tests_cant": "offsets and widths unbounded", "anchors": ["enum_vec/src/vec_u32/mod.rs: get_raw_unchecked, set_raw_unchecked, set_len, storage_mut"]}
{"id": "C41", "title": "Vectors near the usize limit keep all their elements", "statement": "shrink_to_fit, append and remove keep elements intact up to the largest length usize can express (reachable on 32-bit targets with 1-bit elements).", "quantifier": "every length up to usize::MAX", "why_tests_cant": "needs half a gigabyte vectors on a 32-bit target", "anchors": ["enum_vec/src/vec_u32/mod.rs: blocks_for_elements (saturating_add), fix_storage, remove"]}
{"id": "C42", "title": "A panic leaves every vector usable", "statement": "After any panicking call (index out of range, capacity overflow, user closure or iterator panic) the vector still satisfies len() <= storage, reads in range succeed without undefined behaviour, and operations continue to work.", "quantifier": "every call, state and panic point", "why_tests_cant": "panic points unbounded", "anchors": ["enum_vec/src/vec_u32/mod.rs: all &mut self methods"]}
{"id": "C43", "title": "Iterating an EnumSet never panics", "statement": "However the set was obtained (new, from_iter, from_bit_set, any in-place operation), iter() yields exactly len() values and then None, and does not panic.", "quantifier": "every set over any lawful type, every history", "why_tests_cant": "from_bit_set accepts any bit set, histories unbounded", "anchors": ["enum_set/src/lib.rs: from_bit_set, iter, WrapIter"]}
{"id": "C44", "title": "Calls fail for lack of memory only when they ask for too much", "statement": "push, insert, extend, from_iter, reserve, with_capacity, append and clone return (no capacity overflow panic, no abort) whenever the allocator can grant the number of blocks their result needs; from_elem and resize whenever it can grant the square of the number of blocks they fill; no other call ever fails for lack of memory.", "quantifier": "every vector, call and program, every allocator limit and growth policy", "why_tests_cant": "needs every size up to the limit, and unlimited programs", "anchors": ["enum_vec/src/vec_u32/mod.rs: push, insert, extend, reserve, with_capacity, append, extend_with_value, clone"]}
{"id": "C45", "title": "The packed layout seen through storage() and storage_mut()", "statement": "With b the minimum width and P = floor(W/b), element i is the number in bits b*(i mod P) .. b*(i mod P)+b-1 of storage()[i / P]; assigning a block through storage_mut() changes exactly the elements of that block, to the groups of bits of the new block; copying the blocks of storage() and the length into an empty vector copies the elements.", "quantifier": "every vector, block number and block value, every storage and element type", "why_tests_cant": "unbounded lengths, 2^W block values", "anchors": ["enum_vec/src/vec_u32/mod.rs: storage, storage_mut, set_len, block_index, get_raw_unchecked"]}
{"id": "C46", "title": "The derive macro's output means the documented numbering", "statement": "For every struct and enum declaration, the tokens #[derive(EnumLike)] emits, read with Rust's operator precedence and run in usize arithmetic in any build profile, are an implementation whose NUM_VARIANTS is the number of values, whose to_discr and from_discr are mutually inverse, and whose numbers are those of C31/C32: independent of variant, field and pattern names and of tuple or brace syntax. Unions and variants V() / V {} are rejected.", "quantifier": "every declaration: any number and order of variants and fields, any field types", "why_tests_cant": "declarations are unbounded; macro tests cover a few", "anchors": ["enum_like_derive/src/lib.rs: derive_enum_like, generate_enum_code, generate_rusty_enum_code, generate_c_enum_code, generate_struct_code, all_variants_of, MatchArm, num_variants_product, from_discr_body, to_discr_body"]}
{"id": "C47", "title": "The tuple and array implementations work for every length and element type", "statement": "Tuples of 1 to 32 components and arrays of 0 to 32 elements implement EnumLike for every element type that does (longer ones do not). from_discr inverts to_discr, numbers count up with the first component least significant, and both conversions move every element exactly once: nothing uninitialised is used or dropped, whether or not the element type is Copy or needs to be dropped (the trait does not require Copy, and EnumSet accepts such types).", "quantifier": "every tuple and array type, nested in any way, every value, every choice of which user types implement Drop", "why_tests_cant": "types are unbounded; a wrong table line is visible only at its length; undefined behaviour passes tests", "anchors": ["enum_like/src/lib.rs: tuple_impls, array_impls, reverse_idx_a, reverse_idx_b, reverse_idx_c"]}
{"id": "C48", "title": "Any history of EnumSet calls answers as mathematical sets do", "statement": "A client that creates any number of EnumSets (new, FromIterator, clone, from_bit_set of numbers of values) and picks each call from all answers so far (insert, remove, clear, extend with panicking iterators, *_with, contains, len, is_empty, ==, cmp, Hash, get_ref/into_bit_set, subset/superset/disjoint, any number of next() on iter/union/intersection/difference/symmetric_difference) sees exactly the answers of sets of T, iterated in the order of to_discr, ordered by cmp as their lists of members, hashed alike if equal; no call panics unless the caller's own iterator does, and sets never influence each other.", "quantifier": "every element type obeying the trait's contract, every adaptive client, any number of sets and calls", "why_tests_cant": "histories and element types are unbounded", "anchors": ["enum_set/src/lib.rs: EnumSet, WrapIter"]}
{"id": "C49", "title": "Only growing calls and shrink_to_fit change the memory a vector occupies", "statement": "pop, remove, swap, swap_remove, truncate, clear, get, set, retain, for_each, any, all, ==, hash, to_vec, iteration, len and is_empty leave capacity() of every vector unchanged, also when they panic. No call other than shrink_to_fit makes a capacity() smaller. With a container that doubles when it grows, a vector that is not shrunk is moved to a new allocation at most as often as its capacity can be doubled, and n pushes onto a new vector occupy at most about twice the blocks needed, reallocate O(log n) times and copy O(n) blocks in total.", "quantifier": "every call in every state, every program, every growth policy (doubling for the last sentence)", "why_tests_cant": "programs are unbounded; capacity after a panic or after long histories", "anchors": ["enum_vec/src/vec_u32/mod.rs: all methods", "enum_vec/src/vec_u32/mod.rs: capacity, shrink_to_fit, push, grow_if_needed"]}
{"id": "C50", "title": "Debug prints what Vec and sets print", "statement": "format!(\"{:?}\", v) and format!(\"{:#?}\", v) of an EnumVec give exactly the text Vec gives for the same elements, whatever text the elements' own Debug writes; an EnumSet prints its elements, each once, in the order of to_discr, between braces. If an element's Debug fails, the text stops there and the error is returned.", "quantifier": "every vector and set, every Debug implementation of the elements (any text, any number of write_str pieces), both forms", "why_tests_cant": "texts and lengths are unbounded; indentation depends on how text is split into pieces", "anchors": ["enum_vec/src/vec_u32/mod.rs: impl Debug for EnumVec", "enum_set/src/lib.rs: impl Debug for EnumSet"]}
{"id": "C51", "title": "A SmallEnumVec uses the heap only when it outgrows its inline storage", "statement": "A smallvec_u32 EnumVec holding at most 4 * floor(32/b) elements of b bits (128 of 1 bit, 64 of 2 bits, 32 of 4 bits) lives in its inline storage: no call that leaves the vectors within that size allocates, so programs that keep to it behave as on Vec even if every allocation would fail.", "quantifier": "every program and history, every element type, every allocator and growth policy", "why_tests_cant": "histories are unbounded; allocation failure is not tested", "anchors": ["README.md: SmallEnumVec", "enum_vec/src/smallvec_u32/mod.rs: Storage, push, reserve, extend, with_capacity, append"]}
{"id": "C52", "title": "The memory efficiency figures of the documentation", "statement": "A block of W bits holding elements of n bits wastes W % n bits, so the efficiency is 1 - (W % n)/W; it is 100% exactly for n = 1, 2, 4, 8, 16, 32; and the largest element size at which an EnumVec is better than a Vec of the smallest integer type is 4, 4, 11, 22, 42 bits for 8, 16, 32, 64, 128-bit storage.", "quantifier": "every element type and every storage", "why_tests_cant": "the table lists a few widths only; a claim about all types", "anchors": ["README.md: Memory efficiency", "enum_vec/src/vec_u32/mod.rs: ELEMENTS_PER_BLOCK, ELEMENT_BITS"]}
{"id": "C53", "title": "Unsafe accessors used within their contract, mixed with safe calls", "statement": "A client that mixes safe calls with get_raw_unchecked, set_raw_unchecked, set_len and storage_mut()[w] = b, picking each call from all results so far, sees Vec's behaviour on the elements and exactly the numbers it wrote, provided: slots are used only up to the length, to a previous length, or to what reserve made room for; numbers written fit an element; and on a vector that is half written (some element not a number of a value) it makes no safe call until it has completed it. Memory safety needs only indices and lengths within the blocks of storage() and numbers that fit an element. reserve, set_len and a loop of set_raw_unchecked is extend.", "quantifier": "every adaptive client keeping the contract (safe calls other than those excluded in C22), any number of vectors and calls, every storage", "why_tests_cant": "histories mixing the two kinds of calls are unbounded; undefined behaviour passes tests", "anchors": ["enum_vec/src/vec_u32/mod.rs: get_raw_unchecked, set_raw_unchecked, set_len, storage_mut, reserve"]}
{"id": "C54", "title": "Arbitrary user code cannot make a vector unsafe", "statement": "to_discr, from_discr, Clone, closures, iterators (with any size_hint), hashers and loop bodies are safe code of the user and may do anything safe code can: panic half way, keep state, give different answers each time, answer any usize whatever NUM_VARIANTS says, never finish. No client that catches the panics and goes on using the same vectors runs into undefined behaviour, and every vector stays valid. With pure user code the calls are those of C01-C29.", "quantifier": "every user code, every adaptive client (reserve amounts of C26, no split_off or Vec-storage append), any number of vectors and calls, every storage", "why_tests_cant": "tests use lawful derives; user code and the moment of a panic range over all programs", "anchors": ["enum_vec/src/vec_u32/mod.rs: get, set, push, pop, insert, remove, swap_remove, retain, resize, extend_with_value, extend, any, all, for_each, iter, hash", "enum_like/src/lib.rs: EnumLike"]}
{"id": "C55", "title": "A panic in user code leaves the vector as Vec would", "statement": "If to_discr, from_discr, Clone, a closure or an iterator panics at any moment (and otherwise obeys the contract), every call either returns what Vec returns or panics, and after the panic the vector holds: unchanged elements for get, set, pop, remove, any, all, iteration; the elements swapped but none lost for swap_remove; for retain and for_each the items handled so far and the untouched rest; the old elements for push and insert; the old elements and the items taken for extend; the old elements and copies for resize.", "quantifier": "every truthful user code, every moment of panic, every vector and argument, every storage", "why_tests_cant": "the moment of the panic and the stale bits exposed depend on history", "anchors": ["enum_vec/src/vec_u32/mod.rs: push, insert, extend, resize, retain, for_each, swap_remove, remove, pop, set, get"]}
{"id": "C56", "title": "Only the numbers of the elements matter", "statement": "Two element types with equally many values, whose values are numbered alike (and that panic at the same unused numbers), are interchangeable: every call, program and adaptive client with corresponding elements gets corresponding answers -- the same panics, aborts and failures -- and leaves bit for bit the same storage, length and capacity. So EnumVec<(bool, bool)> and an EnumVec of a four-variant enum are the same vector.", "quantifier": "every pair of element types with a correspondence of values, every vector (also half-written ones), every call, program and client, every storage", "why_tests_cant": "a statement about all element types and about pairs of runs", "anchors": ["enum_vec/src/vec_u32/mod.rs: all methods", "enum_like/src/lib.rs: EnumLike"]}
{"id": "C57", "title": "A call changes only the storage blocks it must", "statement": "With P elements per block, set, swap, swap_remove and push change only the blocks of the elements they name (the last for push); insert and remove only those from the index to the end; extend, append and growing resize only those from the old end on; reserve drops only blocks beyond those of the reserved length, shrink_to_fit only those beyond the length; retain and for_each only those in use; every other call none; and no call those of a vector it is not given. This holds bit for bit, also for unused bits, and also when the call panics, fails or aborts. An element in another block reads the same afterwards, and a block no call of a program works on keeps its bits through the whole program. Reading calls look at the length and the blocks in use only, bit for bit nothing else.", "quantifier": "every vector in every state, every call with every argument, every element type (lawful or not), every storage, profile and allocator, every outcome", "why_tests_cant": "lengths, block numbers and stale bits are unbounded; a write to a neighbouring block is visible only later", "anchors": ["enum_vec/src/vec_u32/mod.rs: all &mut self methods"]}
{"id": "C58", "title": "Debug and release builds do the same until an overflow panic", "statement": "A method of a release build does exactly what it does in a debug build -- result, panic, contents, unused bits, length and capacity -- unless the debug build panics with an arithmetic overflow. So a program none of whose calls panics in a debug build behaves identically in a release build. The same holds where the element type, closures, iterators, Clone and hashers are arbitrary code with state that may panic.", "quantifier": "every vector in any state (valid or not), every method and argument, every program and adaptive client, every element type (lawful or not), every storage, target and allocator", "why_tests_cant": "tests run in one profile; wrapping is silent in the other and shows only on particular values", "anchors": ["enum_vec/src/vec_u32/mod.rs: all methods", "enum_vec/src/*/mod.rs"]}
{"id": "C59", "title": "The allocator, the growth policy and the container are not observable", "statement": "How a container grows and shrinks, what the allocator grants, and whether it is SmallVec or Vec, shows in the capacity only: two vectors with the same storage blocks and length, on different such containers, get the same answers from every call -- results, panics, undefined behaviour -- and keep the same blocks bit for bit, unless one of them runs out of memory. So does every program and adaptive client up to the first failure for lack of memory. Only append distinguishes SmallVec from Vec. The same holds where the element type, closures, iterators, Clone and hashers are arbitrary code with state that may panic: it is called with the same arguments and ends in the same state. In particular a clone, or a vector made with_capacity, can stand in for the original or a new vector: no call but capacity() can tell.", "quantifier": "every pair of containers (any growth and shrink function, any allocator limit), every vector in any state, every call, program and adaptive client, every element type (lawful or not), every block width, pointer width and profile", "why_tests_cant": "tests run over one allocator and one version of std and smallvec; a dependence on the capacity shows only where they grow differently", "anchors": ["enum_vec/src/vec_u32/mod.rs: all methods", "enum_vec/src/smallvec_u32/mod.rs"]}
