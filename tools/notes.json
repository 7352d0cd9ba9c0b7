{
 "C01": "Proved for storages up to 32 bits and for up to 2^32 variants; the full statement is false (u64/u128 storages accept more than 2^32 variants but cap the width at 32 bits), which C01_width_refuted proves.",
 "C04": "Proved for element widths below the block size and index <= len. For the other inputs theorems state exactly what the code does: C04_insert_past_end for index > len (appends), C04_insert_wide for elements as wide as a block (corrupts, or panics in debug builds). The full statement is refuted. On 32-bit targets the index (source length for append) must not lie in the last incomplete block below usize::MAX (`countable`); on 64-bit targets that cannot happen (C41_countable). The _limit theorems state exactly what the code does there.",
 "C05": "Proved when the vector's unused bits are zero (always, if the width divides the block size), or the removal does not reach past the next block. The full statement is refuted: insert leaves unused bits dirty and remove shifts them into an element. C05_remove_exact says exactly which elements go wrong and how on every vector (with an iff), C05_remove_wide does for elements as wide as a block. On 32-bit targets the index (source length for append) must not lie in the last incomplete block below usize::MAX (`countable`); on 64-bit targets that cannot happen (C41_countable). The _limit theorems state exactly what the code does there.",
 "C09": "Proved for SmallVec storage and for unaligned destinations. For aligned destinations with the Vec storages C09_append_aligned_refuted proves that the source keeps its length without storage and every read of it is undefined behaviour. On 32-bit targets the index (source length for append) must not lie in the last incomplete block below usize::MAX (`countable`); on 64-bit targets that cannot happen (C41_countable). The _limit theorems state exactly what the code does there. C09_append_overflow: totals above usize::MAX.",
 "C10": "Proved for at = len and at > len only. For every at < len C10_split_off_UB_refuted proves undefined behaviour (write outside the storage) unless memory runs out first.",
 "C12": "The initialised storage is n/P+1 blocks; the allocation is refuted to be linear: it is at least ((n-P)/P)^2 blocks.",
 "C13": "Proved except for one corner (one element per block and len + size hint = usize::MAX), where C13_extend_corner_refuted proves undefined behaviour in release builds. C13_extend_too_long covers the remaining promises near usize::MAX (extend fails and changes nothing), C13_endless endless iterators.",
 "C14": "extend with an iterator that ends early leaves a valid vector that begins with the right elements but is followed by stale ones; the full statement is refuted. C14_extend_exact says which elements those are: what the storage held at their places, or 0.",
 "C15": "C15_round_trip excludes the usize::MAX corner of C13 through `reservable`, which needs a slice of usize::MAX elements of a sized enum type.",
 "C21": "Memory safety of every program whose calls pass safe_op (Guard.v), for any EnumLike implementation, even one that breaks the trait's contract; the three exclusions are necessary (C21_memory_safety_refuted, C21_append_refuted, C13_extend_corner_refuted). C21_client_partial: clients that pick each call from everything seen so far, with conditions on the call alone (no append in the Vec storages, no split_off); C21_survivor_partial: also when the client catches capacity overflow panics and goes on. C21_adaptive_partial: adaptive clients under the conditions of Guard.v on the calls they actually make, without roomy.",
 "C22": "Agreement with Vec of every program whose calls pass ok_op (Guard.v); each exclusion corresponds to a refutation in PropShift.v/PropGrow.v. C22_client_partial: the same for clients that pick each call from everything seen so far, with conditions on the call alone (Client.v); insert past the end is taken to append. C22_survivor_partial: clients that catch capacity overflow panics and go on see what lists would show on which an allocating call may fail, leaving the documented residue ([leaves], Client.v). The client theorems assume an allocator that cannot grant 2^usize_bits bits (`roomy`: every 64-bit target). C22_adaptive_partial: adaptive clients under the conditions of Guard.v on the calls they actually make, without roomy.",
 "C23": "For programs passing ok_op in both configurations that do not run out of memory; refuted in general (insert with 8-bit elements differs between u8 and u32 storage). C23_client_partial: for such clients. The client theorems assume an allocator that cannot grant 2^usize_bits bits (`roomy`: every 64-bit target). C23_adaptive_partial: adaptive clients under the conditions of Guard.v on the calls they actually make, without roomy.",
 "C24": "Independence is over whole programs not mentioning the vector; vectors are values in the model (Rust ownership).",
 "C26": "Complete except release builds with one element per block and len + k = usize::MAX, where C26_reserve_corner_refuted proves that all elements are lost.",
 "C27": "push: full. extend: only strictly below capacity(); C27_extend_refuted: filling the capacity exactly reallocates. C27_reserve_exact and C27_extend_exact: reserve and extend reallocate exactly if len + k >= capacity().",
 "C29": "u8/u16/u32/smallvec reject such types; u64/u128 accept them and corrupt a neighbour (C29_refuted). C29_set_exact, C29_push_exact and C29_reads_back_iff say exactly what these storages do: a value is read back iff its number is below 2^32; the rest is or-ed into the next element of the block.",
 "C39": "For programs passing ok_run; without it refuted by remove on dirty unused bits. C39_client_partial: for adaptive clients, conditions on single calls only. The client theorems assume an allocator that cannot grant 2^usize_bits bits (`roomy`: every 64-bit target). C39_adaptive_partial: adaptive clients under the conditions of Guard.v on the calls they actually make, without roomy.",
 "C41": "With allocations bounded so that bits fit in usize (every 64-bit target). Refuted on 32-bit targets, with a program of safe calls reaching undefined behaviour (C41_program_refuted). C41_shrink_exact: with no assumption on the allocator, shrink_to_fit keeps the elements exactly if len() <= P * (usize::MAX / P), with P elements per block.",
 "C42": "For calls passing safe_op; refuted in general by extend in the usize::MAX corner.",
 "C33": "For types using every number below NUM_VARIANTS; C33_unused_number shows the panic otherwise.",
 "C34": "Proved for n that does not overflow the position; C34_nth_refuted and C34_nth_overflows: for huge n a debug build panics and a release build rewinds the iterator.",
 "C36": "Over sets reached by any program whose from_bit_set calls only pass numbers of values. BitSet is modelled by its contract (bit-set crate, not in /repo).",
 "C37": "Over sets reached by any program whose from_bit_set calls only pass numbers of values. BitSet is modelled by its contract (bit-set crate, not in /repo).",
 "C43": "Proved for bit sets holding only numbers of values; from_bit_set checks nothing, so the full statement is refuted. C43_iterates_iff and C43_panics_exact: for any bit set, iteration finishes iff from_discr accepts every number, and otherwise yields the values before the first other number, panics there, and can go on after it.",
 "C44": "Call by call for vectors in any valid state, and for whole programs (C44_no_failure: any program at all; C44_program: the programs of C22 complete with Vec's results). How much each call asks for is defined in Memory.v, separately from the model. C44_client: the same for adaptive clients.",
 "C45": "Both directions of the layout (C45_layout is an equivalence). storage_mut is modelled through the two uses: assigning a block and extending.",
 "C46": "The macro is modelled function by function as a producer of tokens (Derive.v), and the emitted fragment of Rust has its own parser and evaluator there. C46_generic: generic declarations, for every instantiation of the parameters; C46_bounds: the impl header with its where clause; variable and field names are distinct as Rust demands. C46_element_type and C46_vec: the emitted implementation meets the contract that the theorems about vectors assume.",
 "C47": "The macros are modelled line by line (Builtin.v): which lengths have an implementation, the reversal of the index lists, the memory of an array under construction (mem::uninitialized slots, mem::replace moving an element out) and the drop of what is left. Missing: arrays of one or more elements that need to be dropped, where the property is false (C47_array_drop_refuted: to_discr is always undefined behaviour). The model uses the lenient reading of mem::uninitialized (UB only on use or drop); today's Rust reference calls it UB for bool and enums already.",
 "C40": "C40_raw_write_any covers numbers that do not fit in an element.",
 "C48": "Complete over the documented contract of bit_set::BitSet. from_bit_set with numbers that no value has is C43.",
 "C25": "Everything on 64-bit targets, and for numbers of elements up to P * (usize::MAX / P) elsewhere (P elements per block). For larger numbers C25_with_capacity_limit says that with_capacity reserves only that many (so the full statement is refuted), and C41_shrink_exact what shrink_to_fit drops.",
 "C51": "C51_inline_partial: any program whose calls ask for at most the inline blocks (all_inline: a condition on numbers of elements, call by call) keeps every vector inline, whatever the allocator and growth policy do; C51_program_partial: with the results of Vec. Missing: vectors filled to exactly 4 * floor(32/b) elements by collect, extend, from_elem, resize or reserve, where the property is false (C51_refuted: they always spill, because reserve asks for one block too many). C51_exact: for the programs of C22 the exact condition (if and only if): a program never needs the heap iff each call passes fits_exact on the lengths of the Vecs. C51_client_partial: adaptive clients.",
 "C52": "Limits proved: 4, 5, 10, 21 and 25 bits. Missing: the README's figures for EnumVec16, 32, 64 and 128, which are wrong (C52_limits_refuted); b is at most 32 bits in the code.",
 "C53": "Complete for the calls named; the safe calls are those of plain_op (Client.v), which agree with Vec in every state.",
 "C54": "Complete. A call that never returns (an endless iterator or closure) is Abort in the model: nothing is claimed of what follows it.",
 "C55": "Proved for get, set, pop, remove, any, all, iteration, swap_remove, retain, for_each and the constructors. Missing for push, insert, extend and resize: after a user panic they may have extra elements at the end, such as elements popped before (C55_refuted); the elements before them are right. C55_push_exact says what the extra element of push and insert is; C55_pop_push_exact: a push that panics undoes a pop.",
 "C56": "Complete. Closures of the two programs answer corresponding questions alike; corresponding values need not determine each other. C56_crate_types gives the correspondence for any two types of enum_like with the same power of two of values.",
 "C57": "Complete. Assumes reserve amounts as in C26 (Guard.amount) and, for shrink_to_fit, a length not within one block of usize::MAX (C42).",
 "C58": "Complete. The element type is the same function in both builds (for enum_like and derived types: C30-C32, C46 hold in any profile).",
  "C59": "Complete. Answers here are those of Program.v: capacity() itself is the subject of C25. append is compared between containers of the same kind only, because enum_vec's append itself differs between SmallVec and Vec (C59_append)."
}