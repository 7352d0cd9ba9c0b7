{
 "claims": [
  {
   "property": "C01",
   "status": "partial",
   "theorems": [
    "C01_width_partial",
    "C01_compiles",
    "C01_width_refuted"
   ],
   "note": "Proved for storages up to 32 bits and for up to 2^32 variants; the full statement is false (u64/u128 storages accept more than 2^32 variants but cap the width at 32 bits), which C01_width_refuted proves."
  },
  {
   "property": "C02",
   "status": "proved",
   "theorems": [
    "C02_get",
    "C02_set",
    "C02_set_out_of_range"
   ],
   "note": ""
  },
  {
   "property": "C03",
   "status": "proved",
   "theorems": [
    "C03_push",
    "C03_push_storage",
    "C03_pop",
    "C03_pop_empty",
    "C03_len"
   ],
   "note": ""
  },
  {
   "property": "C04",
   "status": "partial",
   "theorems": [
    "C04_insert_wide",
    "C04_insert_limit",
    "C04_insert_limit_debug",
    "C04_insert_partial",
    "C04_insert_past_end",
    "C04_insert_refuted",
    "C04_insert_wide_release_refuted",
    "C04_insert_wide_debug_refuted"
   ],
   "note": "Proved for element widths below the block size and index <= len. For the other inputs theorems state exactly what the code does: C04_insert_past_end for index > len (appends), C04_insert_wide for elements as wide as a block (corrupts, or panics in debug builds). The full statement is refuted. On 32-bit targets the index (source length for append) must not lie in the last incomplete block below usize::MAX (`countable`); on 64-bit targets that cannot happen (C41_countable). The _limit theorems state exactly what the code does there."
  },
  {
   "property": "C05",
   "status": "partial",
   "theorems": [
    "C05_remove_exact",
    "C05_remove_wide",
    "C05_remove_limit",
    "C05_remove_limit_debug",
    "C05_remove_partial",
    "C05_remove_divides_partial",
    "C05_remove_out_of_range",
    "C05_remove_returns",
    "C05_remove_refuted"
   ],
   "note": "Proved when the vector's unused bits are zero (always, if the width divides the block size), or the removal does not reach past the next block. The full statement is refuted: insert leaves unused bits dirty and remove shifts them into an element. C05_remove_exact says exactly which elements go wrong and how on every vector (with an iff), C05_remove_wide does for elements as wide as a block. On 32-bit targets the index (source length for append) must not lie in the last incomplete block below usize::MAX (`countable`); on 64-bit targets that cannot happen (C41_countable). The _limit theorems state exactly what the code does there."
  },
  {
   "property": "C06",
   "status": "proved",
   "theorems": [
    "C06_swap",
    "C06_swap_out_of_range",
    "C06_swap_remove",
    "C06_swap_remove_out_of_range",
    "C06_swap_pointwise",
    "C06_swap_remove_pointwise"
   ],
   "note": ""
  },
  {
   "property": "C07",
   "status": "proved",
   "theorems": [
    "C07_truncate",
    "C07_clear",
    "C07_resize"
   ],
   "note": ""
  },
  {
   "property": "C08",
   "status": "proved",
   "theorems": [
    "C08_retain",
    "C08_retain_pure",
    "C08_retain_calls"
   ],
   "note": ""
  },
  {
   "property": "C09",
   "status": "partial",
   "theorems": [
    "C09_append_limit",
    "C09_append_overflow",
    "C09_append_partial",
    "C09_append_aligned_refuted",
    "C09_append_refuted"
   ],
   "note": "Proved for SmallVec storage and for unaligned destinations. For aligned destinations with the Vec storages C09_append_aligned_refuted proves that the source keeps its length without storage and every read of it is undefined behaviour. On 32-bit targets the index (source length for append) must not lie in the last incomplete block below usize::MAX (`countable`); on 64-bit targets that cannot happen (C41_countable). The _limit theorems state exactly what the code does there. C09_append_overflow: totals above usize::MAX."
  },
  {
   "property": "C10",
   "status": "partial",
   "theorems": [
    "C10_split_off_partial",
    "C10_split_off_out_of_range",
    "C10_split_off_UB_refuted",
    "C10_split_off_refuted"
   ],
   "note": "Proved for at = len and at > len only. For every at < len C10_split_off_UB_refuted proves undefined behaviour (write outside the storage) unless memory runs out first."
  },
  {
   "property": "C11",
   "status": "proved",
   "theorems": [
    "C11_from_elem"
   ],
   "note": ""
  },
  {
   "property": "C12",
   "status": "partial",
   "theorems": [
    "C12_from_elem_partial",
    "C12_from_elem_quadratic_refuted",
    "C12_from_elem_refuted"
   ],
   "note": "The initialised storage is n/P+1 blocks; the allocation is refuted to be linear: it is at least ((n-P)/P)^2 blocks."
  },
  {
   "property": "C13",
   "status": "partial",
   "theorems": [
    "C13_extend_too_long",
    "C13_endless",
    "C13_extend_partial",
    "C13_from_iter_partial",
    "C13_from_slice_partial",
    "C13_extend_corner_refuted",
    "C13_extend_refuted"
   ],
   "note": "Proved except for one corner (one element per block and len + size hint = usize::MAX), where C13_extend_corner_refuted proves undefined behaviour in release builds. C13_extend_too_long covers the remaining promises near usize::MAX (extend fails and changes nothing), C13_endless endless iterators."
  },
  {
   "property": "C14",
   "status": "partial",
   "theorems": [
    "C14_extend_exact",
    "C14_extend_partial",
    "C14_extend_refuted"
   ],
   "note": "extend with an iterator that ends early leaves a valid vector that begins with the right elements but is followed by stale ones; the full statement is refuted. C14_extend_exact says which elements those are: what the storage held at their places, or 0."
  },
  {
   "property": "C15",
   "status": "proved",
   "theorems": [
    "C15_to_vec",
    "C15_round_trip",
    "C15_iter_order"
   ],
   "note": "C15_round_trip excludes the usize::MAX corner of C13 through `reservable`, which needs a slice of usize::MAX elements of a sized enum type."
  },
  {
   "property": "C16",
   "status": "proved",
   "theorems": [
    "C16_iter",
    "C16_protocol",
    "C16_protocol_no_nth",
    "C16_fused"
   ],
   "note": ""
  },
  {
   "property": "C17",
   "status": "proved",
   "theorems": [
    "C17_any"
   ],
   "note": ""
  },
  {
   "property": "C18",
   "status": "proved",
   "theorems": [
    "C18_all"
   ],
   "note": ""
  },
  {
   "property": "C19",
   "status": "proved",
   "theorems": [
    "C19_eq"
   ],
   "note": ""
  },
  {
   "property": "C20",
   "status": "proved",
   "theorems": [
    "C20_hash",
    "C20_eq_hash"
   ],
   "note": ""
  },
  {
   "property": "C21",
   "status": "partial",
   "theorems": [
    "C21_adaptive_partial",
    "C21_client_partial",
    "C21_survivor_partial",
    "C21_memory_safety_partial",
    "C21_memory_safety_refuted",
    "C21_append_refuted"
   ],
   "note": "Memory safety of every program whose calls pass safe_op (Guard.v), for any EnumLike implementation, even one that breaks the trait's contract; the three exclusions are necessary (C21_memory_safety_refuted, C21_append_refuted, C13_extend_corner_refuted). C21_client_partial: clients that pick each call from everything seen so far, with conditions on the call alone (no append in the Vec storages, no split_off); C21_survivor_partial: also when the client catches capacity overflow panics and goes on. C21_adaptive_partial: adaptive clients under the conditions of Guard.v on the calls they actually make, without roomy."
  },
  {
   "property": "C22",
   "status": "partial",
   "theorems": [
    "C22_adaptive_partial",
    "C22_client_partial",
    "C22_survivor_partial",
    "C22_agrees_partial",
    "C22_agrees_refuted"
   ],
   "note": "Agreement with Vec of every program whose calls pass ok_op (Guard.v); each exclusion corresponds to a refutation in PropShift.v/PropGrow.v. C22_client_partial: the same for clients that pick each call from everything seen so far, with conditions on the call alone (Client.v); insert past the end is taken to append. C22_survivor_partial: clients that catch capacity overflow panics and go on see what lists would show on which an allocating call may fail, leaving the documented residue ([leaves], Client.v). The client theorems assume an allocator that cannot grant 2^usize_bits bits (`roomy`: every 64-bit target). C22_adaptive_partial: adaptive clients under the conditions of Guard.v on the calls they actually make, without roomy."
  },
  {
   "property": "C23",
   "status": "partial",
   "theorems": [
    "C23_adaptive_partial",
    "C23_client_partial",
    "C23_same_results_partial",
    "C23_same_results_refuted"
   ],
   "note": "For programs passing ok_op in both configurations that do not run out of memory; refuted in general (insert with 8-bit elements differs between u8 and u32 storage). C23_client_partial: for such clients. The client theorems assume an allocator that cannot grant 2^usize_bits bits (`roomy`: every 64-bit target). C23_adaptive_partial: adaptive clients under the conditions of Guard.v on the calls they actually make, without roomy."
  },
  {
   "property": "C24",
   "status": "proved",
   "theorems": [
    "C24_clone",
    "C24_independent"
   ],
   "note": "Independence is over whole programs not mentioning the vector; vectors are values in the model (Rust ownership)."
  },
  {
   "property": "C25",
   "status": "partial",
   "theorems": [
    "C25_with_capacity_limit",
    "C25_with_capacity_refuted",
    "C25_new",
    "C25_with_capacity_partial",
    "C25_capacity",
    "C25_shrink_to_fit_partial"
   ],
   "note": "Everything on 64-bit targets, and for numbers of elements up to P * (usize::MAX / P) elsewhere (P elements per block). For larger numbers C25_with_capacity_limit says that with_capacity reserves only that many (so the full statement is refuted), and C41_shrink_exact what shrink_to_fit drops."
  },
  {
   "property": "C26",
   "status": "partial",
   "theorems": [
    "C26_reserve_partial",
    "C26_reserve_corner_refuted",
    "C26_reserve_refuted"
   ],
   "note": "Complete except release builds with one element per block and len + k = usize::MAX, where C26_reserve_corner_refuted proves that all elements are lost."
  },
  {
   "property": "C27",
   "status": "partial",
   "theorems": [
    "C27_reserve_exact",
    "C27_extend_exact",
    "C27_push",
    "C27_extend_partial",
    "C27_extend_refuted"
   ],
   "note": "push: full. extend: only strictly below capacity(); C27_extend_refuted: filling the capacity exactly reallocates. C27_reserve_exact and C27_extend_exact: reserve and extend reallocate exactly if len + k >= capacity()."
  },
  {
   "property": "C28",
   "status": "proved",
   "theorems": [
    "C28_for_each",
    "C28_for_each_pure"
   ],
   "note": ""
  },
  {
   "property": "C29",
   "status": "partial",
   "theorems": [
    "C29_set_exact",
    "C29_push_exact",
    "C29_reads_back_iff",
    "C29_rejected_partial",
    "C29_accepted",
    "C29_refuted"
   ],
   "note": "u8/u16/u32/smallvec reject such types; u64/u128 accept them and corrupt a neighbour (C29_refuted). C29_set_exact, C29_push_exact and C29_reads_back_iff say exactly what these storages do: a value is read back iff its number is below 2^32; the rest is or-ed into the next element of the block."
  },
  {
   "property": "C30",
   "status": "proved",
   "theorems": [
    "C30_round_trip",
    "C30_onto",
    "C30_num_variants",
    "C30_tuple_order",
    "C30_array_order",
    "C30_position",
    "C30_element_type"
   ],
   "note": ""
  },
  {
   "property": "C31",
   "status": "proved",
   "theorems": [
    "C31_lawful",
    "C31_c_like",
    "C31_units_first",
    "C31_data_numbers"
   ],
   "note": ""
  },
  {
   "property": "C32",
   "status": "proved",
   "theorems": [
    "C32_lawful",
    "C32_mixed_radix"
   ],
   "note": ""
  },
  {
   "property": "C33",
   "status": "proved",
   "theorems": [
    "C33_values",
    "C33_unused_number"
   ],
   "note": "For types using every number below NUM_VARIANTS; C33_unused_number shows the panic otherwise."
  },
  {
   "property": "C34",
   "status": "partial",
   "theorems": [
    "C34_nth_partial",
    "C34_nth_overflows",
    "C34_nth_refuted"
   ],
   "note": "Proved for n that does not overflow the position; C34_nth_refuted and C34_nth_overflows: for huge n a debug build panics and a release build rewinds the iterator."
  },
  {
   "property": "C35",
   "status": "proved",
   "theorems": [
    "C35_round_trip",
    "C35_rejected",
    "C35_equality"
   ],
   "note": ""
  },
  {
   "property": "C36",
   "status": "proved",
   "theorems": [
    "C36_new",
    "C36_insert",
    "C36_remove",
    "C36_extend",
    "C36_from_iter",
    "C36_clear",
    "C36_len",
    "C36_is_empty",
    "C36_eq",
    "C36_order",
    "C36_order_exact"
   ],
   "note": "Over sets reached by any program whose from_bit_set calls only pass numbers of values. BitSet is modelled by its contract (bit-set crate, not in /repo)."
  },
  {
   "property": "C37",
   "status": "proved",
   "theorems": [
    "C37_iter",
    "C37_union",
    "C37_intersection",
    "C37_difference",
    "C37_symmetric_difference",
    "C37_predicates"
   ],
   "note": "Over sets reached by any program whose from_bit_set calls only pass numbers of values. BitSet is modelled by its contract (bit-set crate, not in /repo)."
  },
  {
   "property": "C38",
   "status": "proved",
   "theorems": [
    "C38_bits_per_element",
    "C38_total_bits"
   ],
   "note": ""
  },
  {
   "property": "C39",
   "status": "partial",
   "theorems": [
    "C39_adaptive_partial",
    "C39_client_partial",
    "C39_indistinguishable_partial",
    "C39_indistinguishable_refuted"
   ],
   "note": "For programs passing ok_run; without it refuted by remove on dirty unused bits. C39_client_partial: for adaptive clients, conditions on single calls only. The client theorems assume an allocator that cannot grant 2^usize_bits bits (`roomy`: every 64-bit target). C39_adaptive_partial: adaptive clients under the conditions of Guard.v on the calls they actually make, without roomy."
  },
  {
   "property": "C40",
   "status": "proved",
   "theorems": [
    "C40_raw_write_any",
    "C40_raw_write",
    "C40_set_len",
    "C40_manual_push"
   ],
   "note": "C40_raw_write_any covers numbers that do not fit in an element."
  },
  {
   "property": "C41",
   "status": "partial",
   "theorems": [
    "C41_shrink_exact",
    "C41_countable",
    "C41_shrink_partial",
    "C41_shrink_refuted",
    "C41_program_refuted"
   ],
   "note": "With allocations bounded so that bits fit in usize (every 64-bit target). Refuted on 32-bit targets, with a program of safe calls reaching undefined behaviour (C41_program_refuted). C41_shrink_exact: with no assumption on the allocator, shrink_to_fit keeps the elements exactly if len() <= P * (usize::MAX / P), with P elements per block."
  },
  {
   "property": "C42",
   "status": "partial",
   "theorems": [
    "C42_panic_safe_partial",
    "C42_continue_partial",
    "C42_panic_safe_refuted"
   ],
   "note": "For calls passing safe_op; refuted in general by extend in the usize::MAX corner."
  },
  {
   "property": "C43",
   "status": "partial",
   "theorems": [
    "C43_iterates_partial",
    "C43_iterates_refuted",
    "C43_iterates_iff",
    "C43_panics_exact"
   ],
   "note": "Proved for bit sets holding only numbers of values; from_bit_set checks nothing, so the full statement is refuted. C43_iterates_iff and C43_panics_exact: for any bit set, iteration finishes iff from_discr accepts every number, and otherwise yields the values before the first other number, panics there, and can go on after it."
  },
  {
   "property": "C44",
   "status": "proved",
   "theorems": [
    "C44_client",
    "C44_provides",
    "C44_push",
    "C44_insert",
    "C44_extend",
    "C44_from_iter",
    "C44_reserve",
    "C44_with_capacity",
    "C44_append",
    "C44_clone",
    "C44_from_elem",
    "C44_resize",
    "C44_no_failure",
    "C44_program"
   ],
   "note": "Call by call for vectors in any valid state, and for whole programs (C44_no_failure: any program at all; C44_program: the programs of C22 complete with Vec's results). How much each call asks for is defined in Memory.v, separately from the model. C44_client: the same for adaptive clients."
  },
  {
   "property": "C45",
   "status": "proved",
   "theorems": [
    "C45_layout",
    "C45_write",
    "C45_write_oob",
    "C45_raw_copy"
   ],
   "note": "Both directions of the layout (C45_layout is an equivalence). storage_mut is modelled through the two uses: assigning a block and extending."
  },
  {
   "property": "C46",
   "status": "proved",
   "theorems": [
    "C46_element_type",
    "C46_vec",
    "C46_accepts",
    "C46_numbering",
    "C46_lawful",
    "C46_struct_number",
    "C46_unit_number",
    "C46_data_number",
    "C46_compiles",
    "C46_any_fields",
    "C46_generic",
    "C46_bounds"
   ],
   "note": "The macro is modelled function by function as a producer of tokens (Derive.v), and the emitted fragment of Rust has its own parser and evaluator there. C46_generic: generic declarations, for every instantiation of the parameters; C46_bounds: the impl header with its where clause; variable and field names are distinct as Rust demands. C46_element_type and C46_vec: the emitted implementation meets the contract that the theorems about vectors assume."
  },
  {
   "property": "C47",
   "status": "partial",
   "theorems": [
    "C47_num_variants",
    "C47_too_long",
    "C47_conversions_partial",
    "C47_copy_types",
    "C47_array_drop_refuted",
    "C47_refuted"
   ],
   "note": "The macros are modelled line by line (Builtin.v): which lengths have an implementation, the reversal of the index lists, the memory of an array under construction (mem::uninitialized slots, mem::replace moving an element out) and the drop of what is left. Missing: arrays of one or more elements that need to be dropped, where the property is false (C47_array_drop_refuted: to_discr is always undefined behaviour). The model uses the lenient reading of mem::uninitialized (UB only on use or drop); today's Rust reference calls it UB for bool and enums already."
  },
  {
   "property": "C48",
   "status": "proved",
   "theorems": [
    "C48_sets"
   ],
   "note": "Complete over the documented contract of bit_set::BitSet. from_bit_set with numbers that no value has is C43."
  },
  {
   "property": "C49",
   "status": "proved",
   "theorems": [
    "C49_in_place",
    "C49_kept",
    "C49_moves",
    "C49_pushes"
   ],
   "note": ""
  },
  {
   "property": "C50",
   "status": "proved",
   "theorems": [
    "C50_vec",
    "C50_set"
   ],
   "note": ""
  },
  {
   "property": "C51",
   "status": "partial",
   "theorems": [
    "C51_client_partial",
    "C51_inline_max",
    "C51_inline_partial",
    "C51_program_partial",
    "C51_pushes",
    "C51_refuted",
    "C51_exact"
   ],
   "note": "C51_inline_partial: any program whose calls ask for at most the inline blocks (all_inline: a condition on numbers of elements, call by call) keeps every vector inline, whatever the allocator and growth policy do; C51_program_partial: with the results of Vec. Missing: vectors filled to exactly 4 * floor(32/b) elements by collect, extend, from_elem, resize or reserve, where the property is false (C51_refuted: they always spill, because reserve asks for one block too many). C51_exact: for the programs of C22 the exact condition (if and only if): a program never needs the heap iff each call passes fits_exact on the lengths of the Vecs. C51_client_partial: adaptive clients."
  },
  {
   "property": "C52",
   "status": "partial",
   "theorems": [
    "C52_efficiency",
    "C52_perfect",
    "C52_limits_partial",
    "C52_limits_refuted"
   ],
   "note": "Limits proved: 4, 5, 10, 21 and 25 bits. Missing: the README's figures for EnumVec16, 32, 64 and 128, which are wrong (C52_limits_refuted); b is at most 32 bits in the code."
  },
  {
   "property": "C53",
   "status": "proved",
   "theorems": [
    "C53_client",
    "C53_memory_safety",
    "C53_bulk_write"
   ],
   "note": "Complete for the calls named; the safe calls are those of plain_op (Client.v), which agree with Vec in every state."
  },
  {
   "property": "C54",
   "status": "proved",
   "theorems": [
    "C54_memory_safety",
    "C54_same",
    "C54_same_closures",
    "C54_same_hash"
   ],
   "note": "Complete. A call that never returns (an endless iterator or closure) is Abort in the model: nothing is claimed of what follows it."
  },
  {
   "property": "C55",
   "status": "partial",
   "theorems": [
    "C55_follows",
    "C55_swap_remove",
    "C55_retain",
    "C55_for_each",
    "C55_constructors",
    "C55_push_partial",
    "C55_insert_partial",
    "C55_extend_partial",
    "C55_resize_partial",
    "C55_refuted",
    "C55_push_exact",
    "C55_insert_exact",
    "C55_pop_push_exact"
   ],
   "note": "Proved for get, set, pop, remove, any, all, iteration, swap_remove, retain, for_each and the constructors. Missing for push, insert, extend and resize: after a user panic they may have extra elements at the end, such as elements popped before (C55_refuted); the elements before them are right. C55_push_exact says what the extra element of push and insert is; C55_pop_push_exact: a push that panics undoes a pop."
  },
  {
   "property": "C56",
   "status": "proved",
   "theorems": [
    "C56_call",
    "C56_program",
    "C56_client",
    "C56_numbering",
    "C56_crate_types"
   ],
   "note": "Complete. Closures of the two programs answer corresponding questions alike; corresponding values need not determine each other. C56_crate_types gives the correspondence for any two types of enum_like with the same power of two of values."
  },
  {
   "property": "C57",
   "status": "proved",
   "theorems": [
    "C57_calls",
    "C57_elements",
    "C57_programs",
    "C57_reads",
    "C57_get",
    "C57_writers"
   ],
   "note": "Complete. Assumes reserve amounts as in C26 (Guard.amount) and, for shrink_to_fit, a length not within one block of usize::MAX (C42)."
  },
  {
   "property": "C58",
   "status": "proved",
   "theorems": [
    "C58_methods",
    "C58_programs",
    "C58_clients",
    "C58_user_code"
   ],
   "note": "Complete. The element type is the same function in both builds (for enum_like and derived types: C30-C32, C46 hold in any profile)."
  },
  {
   "property": "C59",
   "status": "proved",
   "theorems": [
    "C59_methods",
    "C59_programs",
    "C59_clients",
    "C59_user_code",
    "C59_stand_in",
    "C59_any_build"
   ],
   "note": "Complete. Answers here are those of Program.v: capacity() itself is the subject of C25. append is compared between containers of the same kind only, because enum_vec's append itself differs between SmallVec and Vec (C59_append)."
  }
 ]
}