(** Audit.v -- generated by tools/manifest.py: the assumptions of every theorem in
    MANIFEST.json.  Each command prints "Closed under the global context". *)
From Verif Require Import PropAdaptive PropAllocator PropBuiltin PropCap PropClient PropDebug PropDerive PropEff PropEnum PropExact PropGrow PropInline PropLimit PropLocal PropMemory PropProfile PropProg PropRelate PropSet PropSetClient PropShift PropStorage PropUnsafe PropUser PropUserExact PropVec PropWidth.
Print Assumptions C01_width_partial.
Print Assumptions C01_compiles.
Print Assumptions C01_width_refuted.
Print Assumptions C02_get.
Print Assumptions C02_set.
Print Assumptions C02_set_out_of_range.
Print Assumptions C03_push.
Print Assumptions C03_push_storage.
Print Assumptions C03_pop.
Print Assumptions C03_pop_empty.
Print Assumptions C03_len.
Print Assumptions C04_insert_wide.
Print Assumptions C04_insert_limit.
Print Assumptions C04_insert_limit_debug.
Print Assumptions C04_insert_partial.
Print Assumptions C04_insert_past_end.
Print Assumptions C04_insert_refuted.
Print Assumptions C04_insert_wide_release_refuted.
Print Assumptions C04_insert_wide_debug_refuted.
Print Assumptions C05_remove_exact.
Print Assumptions C05_remove_wide.
Print Assumptions C05_remove_limit.
Print Assumptions C05_remove_limit_debug.
Print Assumptions C05_remove_partial.
Print Assumptions C05_remove_divides_partial.
Print Assumptions C05_remove_out_of_range.
Print Assumptions C05_remove_returns.
Print Assumptions C05_remove_refuted.
Print Assumptions C06_swap.
Print Assumptions C06_swap_out_of_range.
Print Assumptions C06_swap_remove.
Print Assumptions C06_swap_remove_out_of_range.
Print Assumptions C06_swap_pointwise.
Print Assumptions C06_swap_remove_pointwise.
Print Assumptions C07_truncate.
Print Assumptions C07_clear.
Print Assumptions C07_resize.
Print Assumptions C08_retain.
Print Assumptions C08_retain_pure.
Print Assumptions C08_retain_calls.
Print Assumptions C09_append_limit.
Print Assumptions C09_append_overflow.
Print Assumptions C09_append_partial.
Print Assumptions C09_append_aligned_refuted.
Print Assumptions C09_append_refuted.
Print Assumptions C10_split_off_partial.
Print Assumptions C10_split_off_out_of_range.
Print Assumptions C10_split_off_UB_refuted.
Print Assumptions C10_split_off_refuted.
Print Assumptions C11_from_elem.
Print Assumptions C12_from_elem_partial.
Print Assumptions C12_from_elem_quadratic_refuted.
Print Assumptions C12_from_elem_refuted.
Print Assumptions C13_extend_too_long.
Print Assumptions C13_endless.
Print Assumptions C13_extend_partial.
Print Assumptions C13_from_iter_partial.
Print Assumptions C13_from_slice_partial.
Print Assumptions C13_extend_corner_refuted.
Print Assumptions C13_extend_refuted.
Print Assumptions C14_extend_exact.
Print Assumptions C14_extend_partial.
Print Assumptions C14_extend_refuted.
Print Assumptions C15_to_vec.
Print Assumptions C15_round_trip.
Print Assumptions C15_iter_order.
Print Assumptions C16_iter.
Print Assumptions C16_protocol.
Print Assumptions C16_protocol_no_nth.
Print Assumptions C16_fused.
Print Assumptions C17_any.
Print Assumptions C18_all.
Print Assumptions C19_eq.
Print Assumptions C20_hash.
Print Assumptions C20_eq_hash.
Print Assumptions C21_adaptive_partial.
Print Assumptions C21_client_partial.
Print Assumptions C21_survivor_partial.
Print Assumptions C21_memory_safety_partial.
Print Assumptions C21_memory_safety_refuted.
Print Assumptions C21_append_refuted.
Print Assumptions C22_adaptive_partial.
Print Assumptions C22_client_partial.
Print Assumptions C22_survivor_partial.
Print Assumptions C22_agrees_partial.
Print Assumptions C22_agrees_refuted.
Print Assumptions C23_adaptive_partial.
Print Assumptions C23_client_partial.
Print Assumptions C23_same_results_partial.
Print Assumptions C23_same_results_refuted.
Print Assumptions C24_clone.
Print Assumptions C24_independent.
Print Assumptions C25_with_capacity_limit.
Print Assumptions C25_with_capacity_refuted.
Print Assumptions C25_new.
Print Assumptions C25_with_capacity_partial.
Print Assumptions C25_capacity.
Print Assumptions C25_shrink_to_fit_partial.
Print Assumptions C26_reserve_partial.
Print Assumptions C26_reserve_corner_refuted.
Print Assumptions C26_reserve_refuted.
Print Assumptions C27_reserve_exact.
Print Assumptions C27_extend_exact.
Print Assumptions C27_push.
Print Assumptions C27_extend_partial.
Print Assumptions C27_extend_refuted.
Print Assumptions C28_for_each.
Print Assumptions C28_for_each_pure.
Print Assumptions C29_set_exact.
Print Assumptions C29_push_exact.
Print Assumptions C29_reads_back_iff.
Print Assumptions C29_rejected_partial.
Print Assumptions C29_accepted.
Print Assumptions C29_refuted.
Print Assumptions C30_round_trip.
Print Assumptions C30_onto.
Print Assumptions C30_num_variants.
Print Assumptions C30_tuple_order.
Print Assumptions C30_array_order.
Print Assumptions C30_position.
Print Assumptions C30_element_type.
Print Assumptions C31_lawful.
Print Assumptions C31_c_like.
Print Assumptions C31_units_first.
Print Assumptions C31_data_numbers.
Print Assumptions C32_lawful.
Print Assumptions C32_mixed_radix.
Print Assumptions C33_values.
Print Assumptions C33_unused_number.
Print Assumptions C34_nth_partial.
Print Assumptions C34_nth_overflows.
Print Assumptions C34_nth_refuted.
Print Assumptions C35_round_trip.
Print Assumptions C35_rejected.
Print Assumptions C35_equality.
Print Assumptions C36_new.
Print Assumptions C36_insert.
Print Assumptions C36_remove.
Print Assumptions C36_extend.
Print Assumptions C36_from_iter.
Print Assumptions C36_clear.
Print Assumptions C36_len.
Print Assumptions C36_is_empty.
Print Assumptions C36_eq.
Print Assumptions C36_order.
Print Assumptions C36_order_exact.
Print Assumptions C37_iter.
Print Assumptions C37_union.
Print Assumptions C37_intersection.
Print Assumptions C37_difference.
Print Assumptions C37_symmetric_difference.
Print Assumptions C37_predicates.
Print Assumptions C38_bits_per_element.
Print Assumptions C38_total_bits.
Print Assumptions C39_adaptive_partial.
Print Assumptions C39_client_partial.
Print Assumptions C39_indistinguishable_partial.
Print Assumptions C39_indistinguishable_refuted.
Print Assumptions C40_raw_write_any.
Print Assumptions C40_raw_write.
Print Assumptions C40_set_len.
Print Assumptions C40_manual_push.
Print Assumptions C41_shrink_exact.
Print Assumptions C41_countable.
Print Assumptions C41_shrink_partial.
Print Assumptions C41_shrink_refuted.
Print Assumptions C41_program_refuted.
Print Assumptions C42_panic_safe_partial.
Print Assumptions C42_continue_partial.
Print Assumptions C42_panic_safe_refuted.
Print Assumptions C43_iterates_partial.
Print Assumptions C43_iterates_refuted.
Print Assumptions C43_iterates_iff.
Print Assumptions C43_panics_exact.
Print Assumptions C44_client.
Print Assumptions C44_provides.
Print Assumptions C44_push.
Print Assumptions C44_insert.
Print Assumptions C44_extend.
Print Assumptions C44_from_iter.
Print Assumptions C44_reserve.
Print Assumptions C44_with_capacity.
Print Assumptions C44_append.
Print Assumptions C44_clone.
Print Assumptions C44_from_elem.
Print Assumptions C44_resize.
Print Assumptions C44_no_failure.
Print Assumptions C44_program.
Print Assumptions C45_layout.
Print Assumptions C45_write.
Print Assumptions C45_write_oob.
Print Assumptions C45_raw_copy.
Print Assumptions C46_element_type.
Print Assumptions C46_vec.
Print Assumptions C46_accepts.
Print Assumptions C46_numbering.
Print Assumptions C46_lawful.
Print Assumptions C46_struct_number.
Print Assumptions C46_unit_number.
Print Assumptions C46_data_number.
Print Assumptions C46_compiles.
Print Assumptions C46_any_fields.
Print Assumptions C46_generic.
Print Assumptions C46_bounds.
Print Assumptions C47_num_variants.
Print Assumptions C47_too_long.
Print Assumptions C47_conversions_partial.
Print Assumptions C47_copy_types.
Print Assumptions C47_array_drop_refuted.
Print Assumptions C47_refuted.
Print Assumptions C48_sets.
Print Assumptions C49_in_place.
Print Assumptions C49_kept.
Print Assumptions C49_moves.
Print Assumptions C49_pushes.
Print Assumptions C50_vec.
Print Assumptions C50_set.
Print Assumptions C51_client_partial.
Print Assumptions C51_inline_max.
Print Assumptions C51_inline_partial.
Print Assumptions C51_program_partial.
Print Assumptions C51_pushes.
Print Assumptions C51_refuted.
Print Assumptions C51_exact.
Print Assumptions C52_efficiency.
Print Assumptions C52_perfect.
Print Assumptions C52_limits_partial.
Print Assumptions C52_limits_refuted.
Print Assumptions C53_client.
Print Assumptions C53_memory_safety.
Print Assumptions C53_bulk_write.
Print Assumptions C54_memory_safety.
Print Assumptions C54_same.
Print Assumptions C54_same_closures.
Print Assumptions C54_same_hash.
Print Assumptions C55_follows.
Print Assumptions C55_swap_remove.
Print Assumptions C55_retain.
Print Assumptions C55_for_each.
Print Assumptions C55_constructors.
Print Assumptions C55_push_partial.
Print Assumptions C55_insert_partial.
Print Assumptions C55_extend_partial.
Print Assumptions C55_resize_partial.
Print Assumptions C55_refuted.
Print Assumptions C55_push_exact.
Print Assumptions C55_insert_exact.
Print Assumptions C55_pop_push_exact.
Print Assumptions C56_call.
Print Assumptions C56_program.
Print Assumptions C56_client.
Print Assumptions C56_numbering.
Print Assumptions C56_crate_types.
Print Assumptions C57_calls.
Print Assumptions C57_elements.
Print Assumptions C57_programs.
Print Assumptions C57_reads.
Print Assumptions C57_get.
Print Assumptions C57_writers.
Print Assumptions C58_methods.
Print Assumptions C58_programs.
Print Assumptions C58_clients.
Print Assumptions C58_user_code.
Print Assumptions C59_methods.
Print Assumptions C59_programs.
Print Assumptions C59_clients.
Print Assumptions C59_user_code.
Print Assumptions C59_stand_in.
Print Assumptions C59_any_build.
