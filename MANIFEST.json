{"claims": [
  {"property": "C01", "status": "proved", "theorems": ["C01_chain_required_exact"], "note": ""},
  {"property": "C02", "status": "proved", "theorems": ["C02_chain_provided_exact"], "note": ""},
  {"property": "C03", "status": "proved", "theorems": ["C03_index_bijection", "C03_order", "C03_baseline_list"], "note": "Both baseline orders, every number of antennas up to 2^31 (above that the 64-bit products could wrap)."},
  {"property": "C04", "status": "partial", "theorems": ["C04_index_to_pair_inverse", "C04_row_major_inverse_large", "C04_column_major_int_truncation_refuted"], "note": "Double square root modelled with Flocq rounding. Holds for up to 2^16 stations; beyond that the column-major order is refuted (int truncation)."},
  {"property": "C05", "status": "partial", "theorems": ["C05_arrays_full", "C05_rows_tile_partial", "C05_rows_tile_flags_or_weights", "C05_rows_tile_refuted"], "note": "Capacity part holds always. Layout holds if some array is enabled when rows are added; without any array the rows overlap (refuted)."},
  {"property": "C06", "status": "proved", "theorems": ["C06_row_contents_stable", "C06_old_rows_stable", "C06_move_data", "C06_add_row_decision", "C06_copy_contents"], "note": "All histories of the buffer API."},
  {"property": "C07", "status": "proved", "theorems": ["C07_channel_groups"], "note": "Groups valid iff nout <= nin; sizes differ by at most one; widths add up."},
  {"property": "C08", "status": "proved", "theorems": ["C08_rows_are_averages", "C08_windows_partition", "C08_weight_conserved", "C08_flagged_sample_zero", "C08_short_interval_refuted"], "note": "Whole step from first slot to finish, exact arithmetic. The last theorem shows that a time interval below the time tolerance makes the step throw."},
  {"property": "C09", "status": "partial", "theorems": ["C09_uvw_mean_partial", "C09_uvw_flagged_refuted"], "note": "Holds for rows with positive weight; refuted for fully flagged rows (sum instead of mean)."},
  {"property": "C10", "status": "proved", "theorems": ["C10_slots_ordered_complete", "C10_slot_times", "C10_weights_conserved", "C10_channels_restored", "C10_channels_rounded", "C10_gap_drops_rest_refuted"], "note": "Stated property proved; the refutation is an extra finding: a missing row of one baseline silently drops every later slot."},
  {"property": "C11", "status": "proved", "theorems": ["C11_blocks_averaged", "C11_slot_count"], "note": "Exact arithmetic."},
  {"property": "C12", "status": "proved", "theorems": ["C12_metadata", "C12_announced_is_delivered", "C12_refusal", "C12_factors"], "note": "Exact arithmetic."},
  {"property": "C13", "status": "partial", "theorems": ["C13_select_partial", "C13_refusal_partial", "C13_select_twice", "C13_bandwidth_refuted", "C13_wrap_refuted"], "note": "Ranges and refusal hold; total bandwidth is not updated and a wrapping start+count is not refused."},
  {"property": "C14", "status": "proved", "theorems": ["C14_renumbering", "C14_used_table"], "note": "Also idempotence."},
  {"property": "C15", "status": "partial", "theorems": ["C15_upsample_partial", "C15_empty_stream_refuted", "C15_order_refuted", "C15_half_offset_refuted", "C15_stuck_refuted", "C15_backwards_refuted"], "note": "Order, coverage and provenance hold for slots at least half an input interval apart and aligned to the output intervals; the full statement is false for the empty stream, closer or half-offset overlaps, a flagged slot repeating the previous time, and times going backwards."},
  {"property": "C16", "status": "partial", "theorems": ["C16_filtered_partial", "C16_announced", "C16_empty_selection_refuted", "C16_large_buffer_refuted"], "note": "Exact selection proved for selections with a match and buffers up to 2^32 values; false for a selection matching nothing (everything passes) and for larger buffers (32-bit offset)."},
  {"property": "C17", "status": "proved", "theorems": ["C17_id_map", "C17_subtable"], "note": "The empty set of removed ids is excluded by the caller."},
  {"property": "C18", "status": "proved", "theorems": ["C18_accepted", "C18_value", "C18_unambiguous", "C18_not_not_refuted"], "note": "All expressions and all spellings, including symbols written without blanks. The pointwise use of the result on flag arrays is in C51. Finding: the word NOT directly followed by '!' is read as a set name."},
  {"property": "C19", "status": "proved", "theorems": ["C19_set", "C19_set_exact", "C19_clear", "C19_clear_exact", "C19_counts", "C19_set_incomplete_refuted", "C19_clear_incomplete_refuted", "C19_clear_adds_refuted"], "note": "The promises hold for every flag pattern; the exact result for flags equal over the correlations. Three stronger readings are refuted for unequal flags or invalid data."},
  {"property": "C20", "status": "proved", "theorems": ["C20_time_of_day", "C20_absolute", "C20_wide_refuted", "C20_next_day_refuted", "C20_absolute_accepted"], "note": "For ranges within the day and half widths up to 12 hours; outside of that the claim is refuted with accepted inputs."},
  {"property": "C21", "status": "partial", "theorems": ["C21_mask", "C21_partial", "C21_refuted", "C21_refused"], "note": "The full claim is false: a selection without channels is ignored (C21_refuted). The theorem covers selections with at least one channel."},
  {"property": "C22", "status": "proved", "theorems": ["C22_regular", "C22_bda", "C22_monotone", "C22_negative_bound_refuted"], "note": "Exact real arithmetic, coordinates below 10^15, uv distance ranges without negative bounds; with a negative lower bound the claim is refuted."},
  {"property": "C23", "status": "partial", "theorems": ["C23_file", "C23_last_wins", "C23_agree_partial", "C23_equals_refuted", "C23_double_equals_refuted", "C23_stray_text_refuted", "C23_blank_refuted"], "note": "Files and arguments agree, and the last setting wins, for every list of settings whose keys are plain and whose values hold no '=' or '#' outside quotes and do not end in a backslash; outside that the statement is false of the code and the refutations show how."},
  {"property": "C24", "status": "proved", "theorems": ["C24_lookup", "C24_subset", "C24_subtract", "C24_adopt", "C24_updates"], "note": "For every history of calls, case-sensitive and case-insensitive; adoption for a collection of the same mode."},
  {"property": "C25", "status": "proved", "theorems": ["C25_unused", "C25_normal", "C25_nocase_refuted"], "note": "Exact for every history; finding: in case-insensitive sets a lookup in another spelling does not count as use."},
  {"property": "C26", "status": "proved", "theorems": ["C26_elements", "C26_single", "C26_nested", "C26_unquote", "C26_interleaved_refuted"], "note": "Exact characterisation (iff) of the elements getVector returns, including refusal, for every text; getString removes exactly the protecting quotes. Finding: interleaved brackets such as [(]) are accepted because only counts are kept, and [ or { inside ( ) is refused."},
  {"property": "C27", "status": "partial", "theorems": ["C27_expansion_partial", "C27_overflow_refuted", "C27_quoted_suffix_refuted"], "note": "Proved for every text made of plain characters, single dots, quoted strings and ranges (prefix and suffix without dots or quotes); counting up to 2147483647 overflows (refuted), and a quoted suffix is cut at a comma (refuted)."},
  {"property": "C28", "status": "proved", "theorems": ["C28_signed", "C28_unsigned", "C28_unique", "C28_blank_refuted"], "note": "All ten integer readers accept exactly the texts denoting a number in range (decimal with sign, or 0x hexadecimal) and give that number. Finding: blank text is accepted as 0. strto(u)l modelled per glibc."},
  {"property": "C29", "status": "proved", "theorems": ["C29_partition", "C29_once", "C29_around"], "note": "The distance test is an arbitrary relation."},
  {"property": "C30", "status": "partial", "theorems": ["C30_values", "C30_refused", "C30_no_number_refuted"], "note": "Values and the refusal of items without a colon are proved for any pattern matching. That malformed items are refused is false: the value is read from a stream without looking at its state."},
  {"property": "C31", "status": "partial", "theorems": ["C31_conserved", "C31_complete", "C31_order", "C31_one_reader", "C31_empty_buffer_refuted"], "note": "Proved for every schedule of any number of readers with a read buffer of at least one item; a reader with a buffer of zero items stops at once and loses all. The queue below the buffers is taken to be a first in, first out queue."},
  {"property": "C32", "status": "proved", "theorems": ["C32_stream", "C32_mean", "C32_window"], "note": "Floating point operations and the kernel are parameters in C32_stream; C32_mean is in exact arithmetic. Any order in which threads treat the samples of a slot. Memory allocation and the lane itself not modelled."},
  {"property": "C33", "status": "partial", "theorems": ["C33_time_window_partial", "C33_window_size", "C33_short_reads_outside", "C33_short_refuted"], "note": "Proved for streams with at least as many slots as the window. Refuted for shorter streams: slots lost or sent without data, and reads past the list of time entries."},
  {"property": "C34", "status": "proved", "theorems": ["C34_window_size", "C34_channels"], "note": "Every odd window that fits, every channel; the computed window size is odd and fits."},
  {"property": "C35", "status": "partial", "theorems": ["C35_correlations_partial", "C35_outside_iff", "C35_outside_refuted", "C35_dropped_refuted"], "note": "Proved for lists that are a permutation of 0..k-1. Refuted otherwise: the list is indexed with its own values."},
  {"property": "C36", "status": "partial", "theorems": ["C36_decision_partial", "C36_scratch_refuted", "C36_flagged_samples", "C36_flagged_values"], "note": "Proved when the windows hold no flagged sample and fill the scratch space; refuted otherwise: stale scratch values take part in the median. Exact arithmetic."},
  {"property": "C37", "status": "proved", "theorems": ["C37_baselines"], "note": "Every baseline table and every list of superstations without common stations."},
  {"property": "C38", "status": "proved", "theorems": ["C38_existing", "C38_value", "C38_uvw"], "note": "All settings, data, weights and flags; exact arithmetic."},
  {"property": "C39", "status": "partial", "theorems": ["C39_regular", "C39_ordered", "C39_ends", "C39_last_lost_refuted", "C39_out_of_order_refuted"], "note": "Proved for stored times in order and any tolerance below half an interval: order, completeness up to the last time minus the tolerance, insertion only where nothing is stored, end of reading; regular sets deliver exactly the grid. False in two cases: the last time slot is lost if the times drift within the tolerance, and times that are out of order can make the delivered times go back."},
  {"property": "C40", "status": "partial", "theorems": ["C40_selected", "C40_inside", "C40_negative_refuted"], "note": "False for negative values: minus one is taken as zero, and others are undefined behaviour. Evaluation of the expressions is not modelled."},
  {"property": "C41", "status": "partial", "theorems": ["C41_stored", "C41_inserted", "C41_no_column", "C41_irregular", "C41_counted", "C41_without_data_refuted", "C41_count_refuted"], "note": "False if the visibilities are not read (flags are then not spread and non-finite data not flagged), and the count of a correlation leaves out those after another one of the sample. Sizes below 2^32. Extra data columns are not modelled."},
  {"property": "C42", "status": "proved", "theorems": ["C42_counts", "C42_totals", "C42_tables", "C42_columns", "C42_fully_flagged"], "note": "Counts are natural numbers (int64_t overflow out of reach is not modelled); percentages and printing of numbers not modelled."},
  {"property": "C43", "status": "proved", "theorems": ["C43_transfer", "C43_frequency", "C43_refused", "C43_factor"], "note": "For the main data buffer and the flags, with exact frequencies."},
  {"property": "C44", "status": "partial", "theorems": ["C44_works", "C44_neighbours", "C44_first_refuted", "C44_column_refuted", "C44_bda_out_refuted", "C44_bda_lost_refuted", "C44_split_refuted"], "note": "Proved when the first step accepts the data of the reader and no column reader is used on BDA data. In general false: the first step is not checked, and a column reader claims to give regular data. Also, output steps of BDA data are refused in the list of steps or swallow the data, and a split at the end of a split is refused."},
  {"property": "C45", "status": "partial", "theorems": ["C45_clip_partial", "C45_inserted_slot_refuted", "C45_unsorted_rows_refuted"], "note": "Proved when the predicted slots have ascending row numbers; refuted for inserted (missing) time slots and for slots whose rows do not ascend. Prediction and amplitude comparison are oracles."},
  {"property": "C46", "status": "partial", "theorems": ["C46_median_partial", "C46_order_independent", "C46_even_refuted"], "note": "The C++ standard does not guarantee the result for an even number of values: the element at the middle is read after a second nth_element, which may move it. Proved for odd counts with any conforming nth_element and for even counts when the second call keeps that element (as libstdc++ does)."},
  {"property": "C47", "status": "partial", "theorems": ["C47_time_factor_limits", "C47_out_channels_limits", "C47_minchannels_refuted"], "note": "Exact arithmetic. Refuted when minchannels exceeds the number of input channels."},
  {"property": "C48", "status": "partial", "theorems": ["C48_autocorrelations", "C48_no_baselines_refuted"], "note": "Table correct for non-empty baseline lists; undefined behaviour without baselines."},
  {"property": "C49", "status": "proved", "theorems": ["C49_time_count", "C49_set_times_total"], "note": "Tolerates an offset below half an interval."},
  {"property": "C50", "status": "proved", "theorems": ["C50_baseline_selection"], "note": "Station patterns are an arbitrary predicate; the MSSelection syntax of casacore is not modelled."},
  {"property": "C51", "status": "proved", "theorems": ["C51_selects", "C51_unique", "C51_uv", "C51_uv_accepted"], "note": "Channel selections that are given must leave a channel (see C21)."},
  {"property": "C52", "status": "partial", "theorems": ["C52_set_channels", "C52_no_channels_refuted"], "note": "Proved, except that zero channels without a reference frequency reads outside the vector (refuted)."},
  {"property": "C53", "status": "partial", "theorems": ["C53_filename", "C53_steps", "C53_measurement_sets_refuted"], "note": "Proved for step names; refuted for measurement sets: L1.SB1.MS and L1.SB2.MS share L1_<step>.flag."},
  {"property": "C54", "status": "proved", "theorems": ["C54_autocorrelations", "C54_untouched"], "note": "Every baseline table in which the autocorrelation index is consistent."},
  {"property": "C55", "status": "proved", "theorems": ["C55_patterns", "C55_negation", "C55_definitions", "C55_names"], "note": "The regular expression matcher is a parameter. Names in the definition record are distinct (keys of a map)."},
  {"property": "C56", "status": "partial", "theorems": ["C56_original_data_partial", "C56_summed_twice_refuted"], "note": "Proved for average=true, useweights=true and minpoints at most 1 with nonnegative weights. Refuted for average=false: weights are applied twice between superstations. useweights=false not covered."},
  {"property": "C57", "status": "partial", "theorems": ["C57_reads_behind_iff", "C57_reads_behind_refuted", "C57_writes_outside_refuted", "C57_below_the_band_refuted", "C57_descending_refuted", "C57_factor_zero_refuted"], "note": "False of the code: the frequency behind the last one is read whenever the source covers the band (exact condition proved), gaps in the row numbers (reader with baseline selection) make it write outside the target, channels below the band of the source are overwritten, descending frequencies get the wrong channel, and a factor of zero is accepted."},
  {"property": "C58", "status": "partial", "theorems": ["C58_start", "C58_ntimes", "C58_end", "C58_negative_ntimes_refuted", "C58_refused"], "note": "False for a negative number of time slots, which is accepted as a huge one. If nothing is left after the start, all times become zero (the theorems ask for a time slot after the start)."},
  {"property": "C59", "status": "partial", "theorems": ["C59_stored", "C59_auto", "C59_auto_not", "C41_inserted", "C59_without_data_refuted"], "note": "Exact arithmetic. Automatic weights without visibilities read outside of the data."},
  {"property": "C60", "status": "partial", "theorems": ["C60_components", "C60_direction_refuted"], "note": "Components, numbers and names are proved. That the direction lies among the components is false: right ascensions are averaged without regard to the border of the circle."},
  {"property": "C61", "status": "partial", "theorems": ["C61_pattern", "C61_special_refuted"], "note": "Proved for patterns without other special characters of regular expressions and names on one line; with such characters it is false. The matching of std::regex is modelled by backtracking over characters, dots, stars and pluses."},
  {"property": "C62", "status": "proved", "theorems": ["C62_type", "C62_unknown"], "note": "Digits and lower case are those of the C locale."},
  {"property": "C63", "status": "partial", "theorems": ["C63_values", "C63_refused", "C63_quotes_refuted", "C63_caller_refuted"], "note": "Proved for lists of texts without quotes. Missing: quotes inside values are taken away, and the parameter set of the caller is changed (refuted)."},
  {"property": "C64", "status": "partial", "theorems": ["C64_removed", "C64_two_refuted", "C64_outside_refuted"], "note": "Proved for four correlations, exact arithmetic. False for other numbers of correlations, which are not refused."},
  {"property": "C65", "status": "partial", "theorems": ["C65_regular", "C65_missing", "C65_bda", "C65_copy", "C65_move", "C65_empty_refuted", "C65_bda_empty_refuted", "C65_move_within_refuted"], "note": "Proved for names that are not empty; false for the empty name and for moving to the same name within a regular buffer."},
  {"property": "C66", "status": "proved", "theorems": ["C66_solutions"], "note": ""},
  {"property": "C67", "status": "partial", "theorems": ["C67_intervals", "C67_buffers", "C67_step", "C67_absent_baseline", "C67_order_refuted", "C67_late_refuted", "C67_no_baselines_refuted"], "note": "Times are exact numbers. Rows out of order within a buffer are accepted silently; a row that comes after its interval was solved, or a step without baselines, makes the code read outside its queue (undefined). A baseline without any data holds back all solving and output until the end."},
  {"property": "C68", "status": "partial", "theorems": ["C68_regular", "C68_bda", "C68_weights_refuted"], "note": "Floating point products and roots are any functions. Weights themselves are not tested for being finite."},
  {"property": "C69", "status": "partial", "theorems": ["C69_regular", "C69_blocks", "C69_solutions", "C69_even", "C69_bda", "C69_first_refuted", "C69_limit_refuted", "C69_weight_block_refuted", "C69_weight_block", "C69_bda_weights_refuted", "C69_antennas", "C69_solution_visibilities", "C69_solution_weights"], "note": "Times are exact and conversions to 32 bits are left out. The claim that the first visibility has the lowest solution number is false for BDA data, limited solution counts shift the numbers of later directions, the step weighs channels in another block than it solves them in, and BDA data with weights reads outside the shape of a matrix."},
  {"property": "C70", "status": "partial", "theorems": ["C70_scalar", "C70_diagonal", "C70_full", "C70_fixed", "C70_first_refuted", "C70_empty_refuted"], "note": "Numbers are exact. The best fit needs that the first visibility of the block has the lowest solution number of every direction, and that the block is not empty; without these the solvers read or write outside their arrays."},
  {"property": "C71", "status": "partial", "theorems": ["C71_stop", "C71_reported", "C71_stall", "C71_stall_never", "C71_reported_refuted", "C71_stall_refuted", "C71_step", "C71_phase", "C71_scale", "C71_same", "C71_same_refuted", "C71_nan_refuted", "C71_finite", "C71_finite_partial", "C71_finite2_refuted", "C71_finite4_refuted"], "note": "False in part: a stalled solver reports a number of iterations like a converged one, stall detection may use numbers that were never set, the full-Jones solver halves its step sizes, a solve without any finite solution converges, and the diagonal and full-Jones solvers use the average of the first element for all. With the default sigma and number of iterations, stalling is never detected. Numbers are exact."},
  {"property": "C72", "status": "partial", "theorems": ["C72_two", "C72_two_refuted", "C72_three_refuted"], "note": "Proved for two solvers, as they are made; the converse of the claim about the reported number is false, and more solvers may do more than the maximum. A solver that has stalled is left out."},
  {"property": "C73", "status": "partial", "theorems": ["C73_written", "C73_solver", "C73_constraint", "C73_constraint_refuted", "C73_bda_refuted", "C73_last_refuted", "C73_times_rounded_partial"], "note": "Proved with exact times for the solutions. With rounding the last solution may be missing in the file, and the time axis of the results of constraints may have another length than its values (findings). The names and attributes in the file are not modelled."},
  {"property": "C74", "status": "proved", "theorems": ["C74_accepted", "C74_passed", "C74_solved"], "note": "For all settings, lists of slots, and every solver, predictor, flagger and correction, which are parameters. Threads and the thread pool are not modelled."},
  {"property": "C75", "status": "partial", "theorems": ["C75_blocks", "C75_sums", "C75_weights_partial", "C75_weights_refuted", "C75_min_vis", "C75_min_vis_refuted", "C75_time_refuted", "C75_time_partial"], "note": "The channel blocks and the sums are proved. Refuted: the weights of earlier slots are multiplied with the factor again for every later slot; with a batch of several intervals the counts are of the whole batch; the time is not the mean time unless the interval has one slot."},
  {"property": "C76", "status": "partial", "theorems": ["C76_subtract_partial", "C76_numbers_refuted", "C76_other_refuted"], "note": "Proved if the numbers of the antennas in the data are those of the solutions. Refuted with antennas without baselines: solutions of other antennas are used, or elements after the end are read."},
  {"property": "C77", "status": "partial", "theorems": ["C77_apply_partial", "C77_when", "C77_channels_refuted", "C77_solutions_refuted", "C77_blocks"], "note": "Proved for one solution per direction and rows whose averaged channels respect the channel blocks; when that is so is a theorem. Refuted otherwise: channels get solutions of another block than they were used for; with several solutions for a direction those of other antennas are used."},
  {"property": "C78", "status": "partial", "theorems": ["C78_accepted", "C78_paired_partial", "C78_prompt", "C78_flags_refuted"], "note": "All proved except that the flags are those with which the buffer came: refuted, the flags of the UVW selection are sent on."},
  {"property": "C79", "status": "partial", "theorems": ["C79_regular", "C79_bda_partial", "C79_bda_refuted"], "note": "Proved for regular data. Refuted for BDA data: the steps are never applied."},
  {"property": "C80", "status": "partial", "theorems": ["C80_flags_partial", "C80_context", "C80_correlations", "C80_fit", "C80_correlation_refuted", "C80_statistics_refuted", "C80_last_window_refuted"], "note": "Proved if all correlations of a visibility have the same flag at the start; refuted otherwise. Refuted: the statistics have the overlaps several times; the last window can be very small."},
  {"property": "C81", "status": "partial", "theorems": ["C81_corrected", "C81_counted", "C81_zero_weight_refuted", "C81_directions_refuted"], "note": "Proved for regular time slots (C81_corrected, C81_counted); weights for positive weights and one direction. False for weights that are zero with full Jones matrices (they become NaN) and for updateweights with several directions of model data."},
  {"property": "C82", "status": "partial", "theorems": ["C82_inherited_partial", "C82_accepted", "C82_interpolation_refuted", "C82_soltab_refuted", "C82_usemodeldata_refuted", "C82_no_steps_refuted"], "note": "Proved for parmdb, solset, timeslotsperparmupdate, updateweights, direction, invert, missingantennabehavior and correction. False for interpolation, soltab and usemodeldata, and steps=[] is undefined."},
  {"property": "C83", "status": "partial", "theorems": ["C83_flags", "C83_outliers", "C83_order", "C83_documented_refuted", "C83_zero_median_refuted"], "note": "All baselines, orders and rounds, with exact numbers; the statistics of the channels of a baseline and the logarithm are parameters. The documented rounds (only unflagged data) are refuted, and all stations are flagged if most have no data."},
  {"property": "C84", "status": "partial", "theorems": ["C84_combined", "C84_accepts", "C84_same_time", "C84_channels", "C84_filled", "C84_missing_refuted", "C84_overlap_refuted", "C84_times_refuted", "C84_made", "C84_first"], "note": "Data, flags, weights, times and channels of the combination for all inputs, on top of the model of the time slots of a reader (C39); the same time for all if the sets are regular. Refuted: missingdata is not looked at, overlapping bands are accepted, and the times of the slots are not compared (undefined behaviour if one set ends earlier). UVW and extra columns are not modelled."},
  {"property": "C85", "status": "partial", "theorems": ["C85_update", "C85_inserted", "C85_run", "C85_reread", "C85_round_trip", "C85_no_change", "C85_fields", "C85_unselected_refuted", "C85_column_refuted", "C85_weight_column_refuted", "C85_dysco_refuted"], "note": "All rows, selections, fields and runs; reading again is through the model of the reader (C41, C59). Refuted: clearing FLAG_ROW unflags channels outside the selection and other flag columns; with msin.weightcolumn=WEIGHT data and weights are written that were not read; dysco does not ask for the flags. Adding columns and keywords is not modelled."},
  {"property": "C86", "status": "partial", "theorems": ["C86_split", "C86_split_longest", "C86_longest", "C86_same_position_refuted"], "note": "The coordinates are exact rationals instead of rounded doubles. With two antennas at the same position the claim is refuted, because autocorrelations are counted as baselines that connect."},
  {"property": "C87", "status": "partial", "theorems": ["C87_lmn", "C87_visibility", "C87_auto", "C87_order", "C87_parts", "C87_reverse", "C87_centre", "C87_gaussian", "C87_no_size", "C87_spectrum", "C87_sinc", "C87_rotation", "C87_time_smearing_refuted"], "note": "Real numbers instead of floating point. Refuted for a point source with all correlations and smearing in time but not in frequency, which is not smeared."},
  {"property": "C88", "status": "proved", "theorems": ["C88_uvw", "C88_data", "C88_steps", "C88_back", "C88_simulated"], "note": "Real numbers instead of floating point; reading the centre from the parset is not modelled. The theorem on simulated data is for components without smearing and with absolute angles."},
  {"property": "C89", "status": "partial", "theorems": ["C89_stations", "C89_refused", "C89_apply", "C89_defined", "C89_models", "C89_chain", "C89_skip_refuted", "C89_model_invert_refuted", "C89_named_prediction_refuted"], "note": "Proved for stations that are skipped only if no antennas were removed, for usemodeldata only with invert=false in a chain, and for predictions of the main data; refuted otherwise. Exact numbers; directions within the tolerance of 1e-9 are taken to be equal."},
  {"property": "C90", "status": "partial", "theorems": ["C90_sum", "C90_additive", "C90_unpolarized", "C90_operation", "C90_named", "C90_named_applycal_refuted", "C90_named_applycal_ignored", "C90_directions", "C90_named_directions_refuted", "C90_which", "C90_parse", "C90_updateweights_refuted"], "note": "Proved for the sum over the sources, the caching of the beam, the operations and the directions. Three parts are false: the corrections of applycal are not applied to a prediction with a name, h5parmpredict with a name has only the last direction, and updateweights is not refused with add and subtract. The visibilities of a source (see C87) and the beam itself are parameters; numbers are exact."},
  {"property": "C91", "status": "partial", "theorems": ["C91_factors", "C91_refused", "C91_process", "C91_bda", "C91_bda_refuted", "C91_no_tiles_refuted", "C91_renumbered_refuted"], "note": "Proved for regular data, and for BDA data where all baselines have the same channels. Three parts are false: BDA data with different numbers of channels are scaled with the factors of the wrong channels and beyond the end of the row, a station without tiles in use gets an infinite factor, and the sizes are taken by number even if stations have been left out and added. Real numbers; matching of patterns is a parameter for which * matches every name."},
  {"property": "C92", "status": "partial", "theorems": ["C92_find", "C92_locate", "C92_regular", "C92_subset", "C92_subset_refuted", "C92_compress", "C92_combine", "C92_combine_possible", "C92_combine_refuted", "C92_combine_hole_refuted", "C92_mapping", "C92_mapped_inside", "C92_equal", "C92_check"], "note": "Proved for exact numbers, where near is equality. Refuted for axes with holes (subset, combine) and for overlapping axes with different cells, where cells are read past the end instead of throwing."},
  {"property": "C93", "status": "partial", "theorems": ["C93_rescale", "C93_polynomial", "C93_created", "C93_default_refuted", "C93_scalars", "C93_covered", "C93_one_domain", "C93_no_values", "C93_outside_refuted", "C93_grid", "C93_center_refuted", "C93_map_refuted"], "note": "Proved for exact numbers. Refuted: a default polynomial without values is scaled to the domain of everything instead of its own; values outside the domains give the last value or an exception depending on the storage; a grid by center and width starts at the center with cells of the full width; the map without steps passes its flags one argument too early."},
  {"property": "C94", "status": "partial", "theorems": ["C94_estimate", "C94_flagged", "C94_matrix_estimate", "C94_threads", "C94_threads_refuted", "C94_exact", "C94_unit", "C94_unit_refuted", "C94_stall", "C94_relaxed", "C94_converged", "C94_init", "C94_propagate"], "note": "Refuted: phase-only solutions of amplitude one after the last iteration without convergence; independence of the thread order over two iterations when one feed of a station is dead. Convergence of the iterations in general is not stated. Numbers are real numbers; the throws for gains that are not finite are not modelled."},
  {"property": "C95", "status": "partial", "theorems": ["C95_cells", "C95_fill", "C95_exact", "C95_corrected", "C95_flagged", "C95_run", "C95_one_correlation", "C95_weights_refuted", "C95_one_correlation_refuted", "C95_all_times_refuted"], "note": "Refuted for weights that differ between the correlations of a fulljones sample, for one correlation with a gain per feed (every station is flagged), and for solint=0 with applysolution (buffers stored outside a vector). That the iterations find the gains is not proved; floating point is exact."},
  {"property": "C96", "status": "partial", "theorems": ["C96_gain", "C96_unused", "C96_scalar", "C96_tec", "C96_h5", "C96_times", "C96_h5_times", "C96_unused_refuted", "C96_scalar_unused_refuted", "C96_overwrite_refuted", "C96_h5_amplitude_refuted", "C96_h5_phase_refuted", "C96_h5_times_refuted"], "note": "Proved for files of one type of calibration. Refuted: stations that are not used with diagonalamplitude, scalarphase and scalaramplitude; a ParmDB that was written with another type; H5Parm tables of scalaramplitude and tecandphase; the time of an incomplete last interval in an H5Parm. Real numbers instead of floating point."},
  {"property": "C97", "status": "partial", "theorems": ["C97_antenna", "C97_antenna_fixed", "C97_antenna_refuted", "C97_interval", "C97_reference", "C97_reference_refuted", "C97_smooth", "C97_smooth_truncated_partial", "C97_smooth_constant", "C97_smooth_ignores", "C97_smooth_refuted"], "note": "Groups with an antenna in common, channel blocks where the reference antenna has no solution, and the window of the truncated kernel break the statement (refuted). Truncated smoothing is proved for kernels of at most half of smoothnessconstraint. Real numbers; not finite is one value."},
  {"property": "C98", "status": "partial", "theorems": ["C98_leakage", "C98_rotation", "C98_form", "C98_fixed", "C98_reference", "C98_diverged_partial", "C98_diverged_refuted", "C98_undetected_refuted", "C98_invalid_refuted", "C98_weights", "C98_rotation_weights_partial", "C98_weights_refuted", "C98_sub_weights_partial", "C98_sub_weights_refuted", "C98_flags_partial", "C98_flags_refuted", "C98_faraday_samples", "C98_faraday", "C98_faraday_refuted", "C98_limit_refuted", "C98_stored"], "note": "proved but for the documented test for divergence (refuted: the second polarization is compared with the mean of the first one, and invalid antennas count in the mean), the flags and the weights of the rotation with more than one sub-solution, and the diagonal with Faraday rotation; the fit of a slope is a parameter"},
  {"property": "C99", "status": "proved", "theorems": ["C99_mixing", "C99_matrix", "C99_flagged", "C99_deproject", "C99_singular", "C99_apply", "C99_subtract", "C99_residual", "C99_equation"], "note": "real numbers; the inversion of a matrix is trusted to give an inverse if there is one; the iterations of the solver (casacore's LSQFit) are not modelled; a cell without any weight, which gives factors that are not numbers, is flagged and not covered"},
  {"property": "C100", "status": "partial", "theorems": ["C100_run_partial", "C100_short_refuted", "C100_zero_refuted", "C100_complete", "C100_directions", "C100_othersources_refuted"], "note": "false for data shorter than timestep and for sources of othersources that are not in the sky model; numbers do not wrap; the contents of averages are their time slots (C99 has the values)"},
  {"property": "C101", "status": "partial", "theorems": ["C101_names", "C101_shown_mode_refuted", "C101_solver", "C101_constraints", "C101_hybrid", "C101_datause_refuted", "C101_gpu_refuted"], "note": "Everything is proved except where it is false: the name that is shown for Faraday rotation is refused as a setting, datause is ignored by solvers that have no choice of data, and usegpu by all modes without diagonal gains."},
  {"property": "C102", "status": "partial", "theorems": ["C102_core", "C102_core_refuted", "C102_groups", "C102_interval_partial", "C102_interval_refuted", "C102_smooth_uniform", "C102_smooth_distance", "C102_smooth_refused", "C102_smooth_refuted"], "note": "Core, groups, factors and distances are proved for exact numbers. False: coreconstraint is ignored if antennaconstraint is given, valid averaging factors are refused if not all antennas are used, and smoothing factors of zero are accepted."},
  {"property": "C103", "status": "partial", "theorems": ["C103_read", "C103_unit", "C103_full", "C103_factors", "C103_read_refuted"], "note": "Refuted for modes with four gains and tables that are not full Jones: gains of another antenna are read, and memory after the values. Proved for all other combinations, except full-Jones tables with a mode of fewer gains, which depends on xtensor and is not modelled."},
  {"property": "C104", "status": "partial", "theorems": ["C104_offset", "C104_grid", "C104_range", "C104_solutions", "C104_offset_refuted", "C104_no_data_refuted"], "note": "Refuted: the offset is not the mean of noisy phases, because the sum of weights is not reset between iterations, and an antenna without finite solutions gets 4.73 TEC units. The best point of the grid is proved for mode tec; for tecandphase only that the TEC is near some point of the grid. Rounding and the approximate (piecewise) stage are not modelled."},
  {"property": "C105", "status": "partial", "theorems": ["C105_sound", "C105_complete", "C105_cell", "C105_domains", "C105_unsorted", "C105_sorted_sound", "C105_grids", "C105_grids_complete", "C105_domains_refuted", "C105_rectangular_refuted"], "note": "Exact arithmetic; sorting of grids and the order of equal elements of std::sort are not modelled. Findings: toDomains writes outside of its arrays for grids with more rows than columns; without asserts non-rectangular domains are accepted and a domain is dropped or invented."},
  {"property": "C106", "status": "partial", "theorems": ["C106_patch", "C106_names", "C106_checked", "C106_refused", "C106_changes", "C106_unchecked_refuted", "C106_source_refuted"], "note": "Names are numbers in the order of the strings, patterns are predicates; the parameters of sources are not modelled. Findings: without the check a second patch with the same name hides the first one, which stays in the list; a source can be added to a patch that does not exist, also with the check."},
  {"property": "C107", "status": "partial", "theorems": ["C107_contains", "C107_intersects", "C107_intersect", "C107_unite", "C107_center", "C107_empty", "C107_order", "C107_intersects_refuted", "C107_unite_refuted"], "note": "Exact arithmetic, casacore::near is equality; asserts and the constructor from a vector are not modelled. Findings: an empty box inside of a box is said to be intersected although no point is inside of it; an empty intersection is the point (0,0), so that the union with it is too large."}
]}
