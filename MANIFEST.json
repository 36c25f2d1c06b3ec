{
 "claims": [
  {
   "property": "C01",
   "status": "proved",
   "theorems": [
    "C01_bus_balance",
    "C01_same_label"
   ],
   "note": "For systems whose buses have different labels. C01_same_label shows that with two buses of one label a balance is missing (see C31)."
  },
  {
   "property": "C02",
   "status": "proved",
   "theorems": [
    "C02_storage_balance"
   ],
   "note": "One-step balance, closed form over any number of steps, netto_discharge."
  },
  {
   "property": "C03",
   "status": "proved",
   "theorems": [
    "C03_storage_levels"
   ],
   "note": "Given or invested capacity, all n+1 charge states."
  },
  {
   "property": "C04",
   "status": "partial",
   "theorems": [
    "C04_refuted",
    "C04_final_bounds_refuted",
    "C04_partial"
   ],
   "note": "REFUTED in general by C04_refuted ('lastValueOfSim' equates the first charge state with the one before the last step) and C04_final_bounds_refuted (final limits are dropped when initial_charge_state is None); C04_partial proves the numeric initial value, the final limits otherwise, and what 'lastValueOfSim' does enforce."
  },
  {
   "property": "C05",
   "status": "proved",
   "theorems": [
    "C05_conversion"
   ],
   "note": "For every iteration order of Python sets."
  },
  {
   "property": "C06",
   "status": "proved",
   "theorems": [
    "C06_boiler",
    "C06_power2heat",
    "C06_heat_pump",
    "C06_cooling_tower",
    "C06_chp",
    "C06_heat_pump_with_source"
   ],
   "note": "Energy conservation of HeatPumpWithSource for a non-zero COP."
  },
  {
   "property": "C07",
   "status": "proved",
   "theorems": [
    "C07_segments"
   ],
   "note": ""
  },
  {
   "property": "C08",
   "status": "proved",
   "theorems": [
    "C08_transmission"
   ],
   "note": "Equal sizes for an investment given at in1, as the class documents."
  },
  {
   "property": "C09",
   "status": "proved",
   "theorems": [
    "C09_flow_limits",
    "C09_flow_limits_range"
   ],
   "note": ""
  },
  {
   "property": "C10",
   "status": "proved",
   "theorems": [
    "C10_fixed_profile",
    "C10_fixed_profile_onoff"
   ],
   "note": ""
  },
  {
   "property": "C100",
   "status": "partial",
   "theorems": [
    "C100_once",
    "C100_true",
    "C100_reported",
    "C100_again_refuted",
    "C100_again_partial",
    "C100_compared",
    "C100_compared_empty",
    "C100_range",
    "C100_mesh",
    "C100_cells"
   ],
   "note": "Everything is proved except that the report can be asked for again: REFUTED by C100_again_refuted (the first report deletes the profiles from tsam's own dictionary, because the copy is shallow; the second one fails with a KeyError); holds without extreme periods by C100_again_partial. Examples C100_applies, C100_again_applies, C100_compared_applies, C100_heat_applies."
  },
  {
   "property": "C101",
   "status": "partial",
   "theorems": [
    "C101_evened_partial",
    "C101_equal_partial",
    "C101_accepted_partial",
    "C101_refuted"
   ],
   "note": "REFUTED in general by C101_refuted (a plant with on/off parameters that is off or at full load and has to deliver half an hour of full load: possible in half hours, not in hours); holds by C101_evened_partial and C101_equal_partial for systems without on/off parameters, excluding flows, segments of conversion and losses of transmissions in use, under the conditions on storages of C99. That both systems build follows from valid data and labels (C101_accepted_partial). Examples C101_applies, C101_accepts."
  },
  {
   "property": "C102",
   "status": "partial",
   "theorems": [
    "C102_check",
    "C102_sides_partial",
    "C102_costs_partial",
    "C102_refuted",
    "C102_sides_refuted",
    "C102_costs_refuted"
   ],
   "note": "REFUTED in general: the check is written down (components.py 294-310) but never called, so C102_refuted (a pipe back to the bus it comes from is accepted), C102_sides_refuted (it loses energy between a bus and itself and carries nothing back) and C102_costs_refuted (an investment of its own in the second direction has extra effects). C102_check: the check would accept exactly the transmissions that fit; for those the rest holds by C102_sides_partial and C102_costs_partial. Example C102_applies."
  },
  {
   "property": "C103",
   "status": "partial",
   "theorems": [
    "C103_distinct",
    "C103_one_flow",
    "C103_labels_partial",
    "C103_proper_partial",
    "C103_refuted",
    "C103_clash_refuted"
   ],
   "note": "C103_distinct and C103_one_flow hold for every accepted system. REFUTED in general: labels with reserved characters are only logged as critical (structure.py 345-349), so C103_refuted (a component A__B is accepted) and C103_clash_refuted (flow B__C of A and flow C of A__B have one name; such a system is refused with a KeyError, Example C103_clash_refused). With proper labels the rest holds by C103_labels_partial and C103_proper_partial. Example C103_applies."
  },
  {
   "property": "C104",
   "status": "partial",
   "theorems": [
    "C104_lists_partial",
    "C104_size_partial",
    "C104_fails",
    "C104_refuted",
    "C104_listing_refuted"
   ],
   "note": "REFUTED in general by C104_refuted: the size uses an attribute that equations do not have, and by C104_fails it fails for every bus and every component with a flow; and by C104_listing_refuted: the flat listing of constraints leaves out all inequations. Variables and equations are listed completely by C104_lists_partial, which also shows that the inequations of parts are left out; the size of parts without constraints is told by C104_size_partial. Example C104_applies."
  },
  {
   "property": "C105",
   "status": "proved",
   "theorems": [
    "C105_told"
   ],
   "note": "For every history in which no calculation is modelled between the modelling and the solving of this one (otherwise the main results themselves can be wrong, C67). Numbers are not rounded in the model; the order of investments of equal size is not claimed. Example C105_applies."
  },
  {
   "property": "C106",
   "status": "partial",
   "theorems": [
    "C106_refused",
    "C106_accepted_partial",
    "C106_profile",
    "C106_refuted",
    "C106_plain_refuted"
   ],
   "note": "REFUTED in general by C106_refuted (limits given as TimeSeriesData cannot be compared: TypeError) and C106_plain_refuted (a fixed profile without a size: the text of the warning asks for the component of the flow, which has none yet, so AttributeError; for all such flows by C106_profile); holds for limits given as numbers and flows without a profile or with a size by C106_accepted_partial. Limits the wrong way round are always refused (C106_refused). Example C106_applies."
  },
  {
   "property": "C11",
   "status": "proved",
   "theorems": [
    "C11_investment_size",
    "C11_storage_size"
   ],
   "note": ""
  },
  {
   "property": "C12",
   "status": "partial",
   "theorems": [
    "C12_full_refuted",
    "C12_forced",
    "C12_declining_partial"
   ],
   "note": "REFUTED in general by C12_full_refuted: without on/off behaviour the rate keeps the limits of the smallest size (C12_forced). Holds by C12_declining_partial where the limits leave room for zero, segmented costs included."
  },
  {
   "property": "C13",
   "status": "proved",
   "theorems": [
    "C13_onoff_coupling"
   ],
   "note": ""
  },
  {
   "property": "C14",
   "status": "proved",
   "theorems": [
    "C14_component_onoff"
   ],
   "note": ""
  },
  {
   "property": "C15",
   "status": "partial",
   "theorems": [
    "C15_flow_switching",
    "C15_component_full_refuted",
    "C15_component_switching_partial"
   ],
   "note": "Proved for flows. For components REFUTED in general by C15_component_full_refuted (several flows with a scalar previous value); holds with at most one such flow by C15_component_switching_partial."
  },
  {
   "property": "C16",
   "status": "partial",
   "theorems": [
    "C16_full_refuted",
    "C16_flow_consecutive_partial",
    "C16_component_consecutive_partial",
    "C16_flow_admitted",
    "C16_component_admitted"
   ],
   "note": "REFUTED in general by C16_full_refuted (the prior run is miscounted); holds by the _partial theorems when the previous states can be counted correctly. The converse by C16_flow_admitted and C16_component_admitted under the same condition."
  },
  {
   "property": "C17",
   "status": "proved",
   "theorems": [
    "C17_flow_totals",
    "C17_on_hours",
    "C17_component_on_hours"
   ],
   "note": ""
  },
  {
   "property": "C18",
   "status": "proved",
   "theorems": [
    "C18_exclusive_flows"
   ],
   "note": ""
  },
  {
   "property": "C19",
   "status": "proved",
   "theorems": [
    "C19_operation"
   ],
   "note": "for every system, effect and feasible point; effect dictionaries with and without the standard effect"
  },
  {
   "property": "C20",
   "status": "proved",
   "theorems": [
    "C20_investment",
    "C20_segmented"
   ],
   "note": "invest effect values are single numbers (a zero-length array would leave its share unconstrained); effect objects registered once"
  },
  {
   "property": "C21",
   "status": "proved",
   "theorems": [
    "C21_objective",
    "C21_penalty"
   ],
   "note": "distinct bus objects carry distinct labels (see C01_same_label)"
  },
  {
   "property": "C22",
   "status": "proved",
   "theorems": [
    "C22_limits"
   ],
   "note": ""
  },
  {
   "property": "C23",
   "status": "proved",
   "theorems": [
    "C23_equation_assembly",
    "C23_rows_exist",
    "C23_rows_speak",
    "C23_numbers_refused",
    "C23_incompatible_rejected"
   ],
   "note": "Summands over explicit index lists with as_sum are excluded (`plain`): see C25."
  },
  {
   "property": "C24",
   "status": "partial",
   "theorems": [
    "C24_failing_additions_refuted",
    "C24_failing_additions_partial",
    "C24_constant_accepted_partial"
   ],
   "note": "REFUTED in general by C24_failing_additions_refuted (a rejected constant array is kept); holds for add_summand."
  },
  {
   "property": "C25",
   "status": "partial",
   "theorems": [
    "C25_sum_over_indices_refuted",
    "C25_valid_indices_raise",
    "C25_sum_over_indices_partial",
    "C25_sum_all"
   ],
   "note": "REFUTED in general by C25_sum_over_indices_refuted; holds for index lists 0..k-1 and for the default."
  },
  {
   "property": "C26",
   "status": "proved",
   "theorems": [
    "C26_bounds",
    "C26_fixed",
    "C26_fixed_respects_bounds"
   ],
   "note": ""
  },
  {
   "property": "C27",
   "status": "proved",
   "theorems": [
    "C27_exactly_the_declared",
    "C27_feasible",
    "C27_duplicates_fail"
   ],
   "note": ""
  },
  {
   "property": "C28",
   "status": "partial",
   "theorems": [
    "C28_reports_partial",
    "C28_history_refuted",
    "C28_tolerance_refuted",
    "C28_labels_refuted"
   ],
   "note": "REFUTED in general by C28_history_refuted (results asked for before solving are kept for ever), C28_tolerance_refuted (binaries are cut off, not rounded) and C28_labels_refuted (a flow labelled like a part of its component, or two elements of one label, hide each other); C28_reports_partial proves it for exact binaries, plain labels and results asked for after modelling"
  },
  {
   "property": "C29",
   "status": "proved",
   "theorems": [
    "C29_selected_data",
    "C29_history_independent",
    "C29_aggregated_data"
   ],
   "note": "after any history of parameter changes, calculations, index selections, collections and aggregated-data insertions"
  },
  {
   "property": "C30",
   "status": "partial",
   "theorems": [
    "C30_effects_partial",
    "C30_refuted"
   ],
   "note": "REFUTED in general by C30_refuted (a call with several effects that fails keeps those before the offending one); uniqueness after any history, the exact effect of a call and atomicity of single-effect calls by C30_effects_partial"
  },
  {
   "property": "C31",
   "status": "partial",
   "theorems": [
    "C31_components_partial",
    "C31_once_partial",
    "C31_bus_lists",
    "C31_refuted",
    "C31_two_systems"
   ],
   "note": "REFUTED in general by C31_refuted (an effect added later may hide a component) and C31_two_systems (a component added to two systems is registered twice at its bus); unique labels, exact refusal, and exact bus lists by the _partial theorems"
  },
  {
   "property": "C32",
   "status": "partial",
   "theorems": [
    "C32_step_lengths",
    "C32_accepted",
    "C32_last_partial",
    "C32_last_refuted"
   ],
   "note": "lengths, sums and signs proved for every system and selection; the length of the last step REFUTED in general by C32_last_refuted (last_time_step_hours is added in the unit of the array), holds with hourly resolution or without it by C32_last_partial"
  },
  {
   "property": "C33",
   "status": "partial",
   "theorems": [
    "C33_cover_partial",
    "C33_refuted"
   ],
   "note": "REFUTED in general by C33_refuted (an offset in time_indices is ignored: steps 3..9 requested, 0..6 calculated); holds without time_indices or for the first m steps by C33_cover_partial"
  },
  {
   "property": "C34",
   "status": "partial",
   "theorems": [
    "C34_handover_partial",
    "C34_trajectory_partial",
    "C34_refuted"
   ],
   "note": "REFUTED in general by C34_refuted (a segment cut short by the end of the horizon hands over the wrong moment); holds if every segment but the last is complete by the _partial theorems"
  },
  {
   "property": "C35",
   "status": "partial",
   "theorems": [
    "C35_restored_partial",
    "C35_refuted"
   ],
   "note": "REFUTED in general by C35_refuted (nothing is restored when a later segment fails); holds if the run finishes or fails before the first segment is solved"
  },
  {
   "property": "C36",
   "status": "partial",
   "theorems": [
    "C36_combines",
    "C36_series_partial",
    "C36_numbers_partial",
    "C36_nothing_else",
    "C36_one_step_refuted"
   ],
   "note": "REFUTED in general by C36_one_step_refuted (a last segment of one step cannot be combined). C36_combines: combining succeeds for every finished run. The combined series and numbers are the listed ones unless the last segment has one step (C36_series_partial, C36_numbers_partial). Not covered: series of aggregated or user-defined models"
  },
  {
   "property": "C37",
   "status": "proved",
   "theorems": [
    "C37_pairs",
    "C37_total"
   ],
   "note": "the assignment of periods to clusters is an arbitrary input (tsam is not modelled)"
  },
  {
   "property": "C38",
   "status": "partial",
   "theorems": [
    "C38_refuted",
    "C38_flows",
    "C38_storages",
    "C38_states",
    "C38_freedom_partial"
   ],
   "note": "REFUTED in general by C38_refuted: the number of allowed deviations is rounded and can exceed the percentage. Equality without freedom is proved in full; with freedom by C38_freedom_partial up to the rounding (half a pair)"
  },
  {
   "property": "C39",
   "status": "partial",
   "theorems": [
    "C39_weights_partial",
    "C39_refuted"
   ],
   "note": "REFUTED in general by C39_refuted (an explicit weight of zero becomes one); holds for non-zero weights by C39_weights_partial"
  },
  {
   "property": "C40",
   "status": "proved",
   "theorems": [
    "C40_raises",
    "C40_json",
    "C40_types",
    "C40_numbers"
   ],
   "note": "Both with and without arrays kept. Component/Flow overrides of infos() and JSON text encoding are not modelled; numbers are compared for dictionaries whose keys stay distinct as text"
  },
  {
   "property": "C41",
   "status": "partial",
   "theorems": [
    "C41_reload",
    "C41_times",
    "C41_arrays",
    "C41_refuted"
   ],
   "note": "REFUTED in general by C41_refuted (results over a daily or coarser time axis cannot be written); every result tree over a finer axis is read back unchanged by C41_reload, C41_times"
  },
  {
   "property": "C42",
   "status": "partial",
   "theorems": [
    "C42_partial",
    "C42_valid_labels",
    "C42_refuted"
   ],
   "note": "REFUTED in general by C42_refuted (labels containing the separator collide and one value is lost); holds by C42_partial when joined keys are distinct and by C42_valid_labels for labels the library accepts without complaint"
  },
  {
   "property": "C43",
   "status": "partial",
   "theorems": [
    "C43_full_refuted",
    "C43_single_state",
    "C43_previous_duration_partial",
    "C43_recent_start_partial"
   ],
   "note": "REFUTED in general by C43_full_refuted; holds for histories that never change state and for recent starts."
  },
  {
   "property": "C44",
   "status": "partial",
   "theorems": [
    "C44_full_refuted",
    "C44_component_was_on_partial"
   ],
   "note": "REFUTED in general by C44_full_refuted; holds with at most one flow with a scalar previous value."
  },
  {
   "property": "C45",
   "status": "partial",
   "theorems": [
    "C45_refuted",
    "C45_named_effects_partial",
    "C45_unshared_partial",
    "C45_dict_kept_partial",
    "C45_loss",
    "C45_first_transformation",
    "C45_total"
   ],
   "note": "REFUTED in general by C45_refuted: the entry for the standard effect is popped from the dict of the user. Holds for named effects, for dicts given to one element, and for dicts without a standard effect"
  },
  {
   "property": "C46",
   "status": "proved",
   "theorems": [
    "C46_repeated_modelling"
   ],
   "note": "for every number of repetitions"
  },
  {
   "property": "C47",
   "status": "proved",
   "theorems": [
    "C47_user_value",
    "C47_default_value",
    "C47_nothing_else"
   ],
   "note": ""
  },
  {
   "property": "C48",
   "status": "proved",
   "theorems": [
    "C48_steps",
    "C48_steps_calendar",
    "C48_end",
    "C48_end_calendar",
    "C48_other_intervals",
    "C48_refuses"
   ],
   "note": "intervals written as a whole number and a unit (the documented form); anything else before the unit is read as 1 (C48_other_intervals)"
  },
  {
   "property": "C49",
   "status": "partial",
   "theorems": [
    "C49_table_partial",
    "C49_one_step_refuted"
   ],
   "note": "REFUTED for calculations of one step by C49_one_step_refuted (no table can be made); for two or more steps by C49_table_partial"
  },
  {
   "property": "C50",
   "status": "proved",
   "theorems": [
    "C50_flow",
    "C50_component"
   ],
   "note": "positive means at least the configured epsilon, from which on the code treats a rate as on"
  },
  {
   "property": "C51",
   "status": "partial",
   "theorems": [
    "C51_other_calculations_partial",
    "C51_lossless_partial",
    "C51_all_steps_partial",
    "C51_refuted"
   ],
   "note": "REFUTED in general by C51_refuted (a transmission with absolute losses in some steps only); holds for any history of calculations by C51_other_calculations_partial if every transmission that had losses in one of them has some in the steps of this one, hence always without absolute losses (C51_lossless_partial) and for calculations of all steps (C51_all_steps_partial)"
  },
  {
   "property": "C52",
   "status": "partial",
   "theorems": [
    "C52_no_trace_partial",
    "C52_all_steps",
    "C52_refuted"
   ],
   "note": "REFUTED in general by C52_refuted (a pipe keeps the on/off parameters it got for losses in a segment; a later calculation of steps without losses succeeds although it would have failed before); holds by C52_no_trace_partial if every transmission with losses in a segment has some in the later calculation, and always for a later calculation of all steps (C52_all_steps)"
  },
  {
   "property": "C53",
   "status": "partial",
   "theorems": [
    "C53_second_run_partial",
    "C53_refuted"
   ],
   "note": "REFUTED by C53_refuted (the second run starts from the state the first one ended in); the segments of the second run are appended to those of the first and cover the same steps by C53_second_run_partial"
  },
  {
   "property": "C54",
   "status": "proved",
   "theorems": [
    "C54_closed",
    "C54_closed_aggregated",
    "C54_determined"
   ],
   "note": ""
  },
  {
   "property": "C55",
   "status": "proved",
   "theorems": [
    "C55_restricts",
    "C55_bound",
    "C55_transfer",
    "C55_bus_balance"
   ],
   "note": ""
  },
  {
   "property": "C56",
   "status": "proved",
   "theorems": [
    "C56_flow",
    "C56_flow_segments",
    "C56_model",
    "C56_component_model"
   ],
   "note": "C56_flow: investments without segmented effects; C56_flow_segments: with them"
  },
  {
   "property": "C57",
   "status": "proved",
   "theorems": [
    "C57_plans",
    "C57_solutions"
   ],
   "note": "for sensible data (record sensible in PlanSpec.v); the rules in PlanSpec.v state what the code means by them, including the peculiarities refuted separately (C04 end of horizon, C12, epsilon as smallest running rate)"
  },
  {
   "property": "C58",
   "status": "proved",
   "theorems": [
    "C58_optimum",
    "C58_solvable"
   ],
   "note": "exact arithmetic; the solver itself is outside the model"
  },
  {
   "property": "C59",
   "status": "proved",
   "theorems": [
    "C59_aggregated",
    "C59_selected",
    "C59_data_kept",
    "C59_refused",
    "C59_vector_after_reuse"
   ],
   "note": "activating new indices without a reset keeps aggregated data, so reading one value per index may then fail (C59_vector_after_reuse)"
  },
  {
   "property": "C60",
   "status": "partial",
   "theorems": [
    "C60_refuted",
    "C60_missing_accepted",
    "C60_load_partial",
    "C60_roundtrip",
    "C60_always_complete"
   ],
   "note": "REFUTED in general by C60_refuted (a file without logging section raises but replaces the configuration) and C60_missing_accepted (a file without modeling section is accepted); holds by C60_load_partial for files with both sections"
  },
  {
   "property": "C61",
   "status": "proved",
   "theorems": [
    "C61_merge"
   ],
   "note": ""
  },
  {
   "property": "C62",
   "status": "proved",
   "theorems": [
    "C62_exact",
    "C62_optimum",
    "C62_solvable"
   ],
   "note": ""
  },
  {
   "property": "C63",
   "status": "proved",
   "theorems": [
    "C63_full_calculation",
    "C63_problem",
    "C63_laws",
    "C63_switching"
   ],
   "note": "For systems in which a transmission with absolute losses has some in every segment, or has none (otherwise a segment can add on/off rules to the next, see C51); starts and stops at borders need segments that are not cut off (C34) and rates above the smallest number that counts as on."
  },
  {
   "property": "C64",
   "status": "partial",
   "theorems": [
    "C64_partial",
    "C64_full_refuted"
   ],
   "note": "REFUTED in general by C64_full_refuted: only one previous flow rate is handed over, so a run that crosses a border counts a single step before it; holds for runs within a segment by C64_partial."
  },
  {
   "property": "C65",
   "status": "proved",
   "theorems": [
    "C65_extraction"
   ],
   "note": "Includes None as the value of a variable without solution."
  },
  {
   "property": "C66",
   "status": "partial",
   "theorems": [
    "C66_tables_partial",
    "C66_refuted"
   ],
   "note": "REFUTED in general by C66_refuted: a component may be called like the bus it is connected to, and then only the table of the bus can be had; holds when no two elements are called alike by C66_tables_partial, for calculations of at least two steps (C49_one_step_refuted) and with the conditions of C28."
  },
  {
   "property": "C67",
   "status": "partial",
   "theorems": [
    "C67_main_partial",
    "C67_own_partial",
    "C67_refuted"
   ],
   "note": "REFUTED in general by C67_refuted: the effects and buses are read from the shared flow system, so modelling a second calculation before the first is solved makes solve() raise TypeError, and modelling one later makes the first show the other's effects; holds when no other calculation is modelled afterwards by C67_main_partial, and for penalty, objective and investments in any case by C67_own_partial. The entry 'lower bound' comes from the solver."
  },
  {
   "property": "C68",
   "status": "partial",
   "theorems": [
    "C68_network_partial",
    "C68_refuted",
    "C68_edge_ends",
    "C68_directions",
    "C68_source_or_sink"
   ],
   "note": "REFUTED in general by C68_refuted: a component called like a bus is shown as a bus; holds when no bus is called like a component by C68_network_partial and C68_directions; the ends of edges are nodes in any case by C68_edge_ends."
  },
  {
   "property": "C69",
   "status": "partial",
   "theorems": [
    "C69_order_partial",
    "C69_best_partial",
    "C69_accepted_partial",
    "C69_refuted",
    "C69_twin_buses",
    "C69_label_order"
   ],
   "note": "REFUTED in general by C69_refuted: of two buses with one label the iteration order of a set decides which is balanced (C69_twin_buses), and a component called like a bus is accepted before the bus's component but not after it (C69_label_order); holds for systems whose buses have distinct labels by C69_order_partial and C69_best_partial, and elements whose labels never meet are accepted in every order by C69_accepted_partial."
  },
  {
   "property": "C70",
   "status": "partial",
   "theorems": [
    "C70_accepted_partial",
    "C70_planned_partial",
    "C70_refuted"
   ],
   "note": "REFUTED in general by C70_refuted: with labels that only differ, a storage Tank and a storage Tank_initial want to call two constraints Tank_initial_charge_state, which is a KeyError. Holds by C70_accepted_partial (the problem is always written down) and C70_planned_partial (and, for sensible data, describes exactly the allowed plans) if no label equals or continues another one with an underscore"
  },
  {
   "property": "C71",
   "status": "partial",
   "theorems": [
    "C71_again",
    "C71_runs_partial",
    "C71_window",
    "C71_horizon_partial",
    "C71_refuted"
   ],
   "note": "REFUTED in general by C71_refuted: ten steps in segments of three leave a last segment of one step, for which an on/off duration cannot be modelled (AttributeError). C71_again (histories) and C71_window hold without exception; the segmented run holds by C71_runs_partial if each segment's data is valid (at least two steps) and reaches the step handed over, and by C71_horizon_partial from validity of the whole horizon"
  },
  {
   "property": "C72",
   "status": "partial",
   "theorems": [
    "C72_wider_partial",
    "C72_refuted"
   ],
   "note": "REFUTED in general by C72_refuted: a size given as 0 counts as unlimited, so raising it to 5 makes a solvable calculation unsolvable. Holds by C72_wider_partial for sensible data in which no size and no maximum size is given as zero"
  },
  {
   "property": "C73",
   "status": "partial",
   "theorems": [
    "C73_steps",
    "C73_uneven",
    "C73_broken_periods",
    "C73_accepted_partial",
    "C73_refuted"
   ],
   "note": "REFUTED in general by C73_refuted: with a price for deviations and a single pair of equated steps an AssertionError is raised. The necessity of even steps and whole periods and the exceptions are proved in general (C73_steps, C73_uneven, C73_broken_periods); acceptance holds by C73_accepted_partial when some steps are equated and, if deviations cost something, at least two pairs are"
  },
  {
   "property": "C74",
   "status": "partial",
   "theorems": [
    "C74_columns",
    "C74_returned",
    "C74_accepted_partial",
    "C74_refuted"
   ],
   "note": "Which data is handed over (C74_columns) and where it returns (C74_returned) is proved without further conditions. The last sentence is REFUTED in general by C74_refuted: both efficiencies of a CHP varying give two series with one label, an AssertionError. It holds by C74_accepted_partial if at most one factor per flow of a converter and one segment end of a segmented converter vary, no effect is called Standard_Effect, charge-state limits do not vary (C74_limits shows the ValueError), and the clustering returns columns of the same length without inventing zeros or losing all non-zero values."
  },
  {
   "property": "C75",
   "status": "proved",
   "theorems": [
    "C75_bars",
    "C75_layout",
    "C75_layout_refused",
    "C75_heat",
    "C75_heat_accepted",
    "C75_heat_refused",
    "C75_filled"
   ],
   "note": "strftime is an argument; acceptance of a heat map supposes that its texts tell the steps between the first and the last datum apart."
  },
  {
   "property": "C76",
   "status": "partial",
   "theorems": [
    "C76_areas",
    "C76_once_partial",
    "C76_once_refuted"
   ],
   "note": "What is drawn, how, and that every column is drawn at least once is proved in general (C76_areas). Exactly once is REFUTED in general by C76_once_refuted: a column of zeros counts as positive and as negative and is drawn twice. It holds by C76_once_partial if every column has a value not next to zero."
  },
  {
   "property": "C77",
   "status": "partial",
   "theorems": [
    "C77_idle_partial",
    "C77_refuted"
   ],
   "note": "REFUTED in general by C77_refuted: an optional investment without on/off parameters, with a relative minimum and a minimum size, cannot be declined; added on a bus of its own it makes a solvable system unsolvable. Holds by C77_idle_partial if no minimum applies to a size that may be chosen (unforced). Acceptance of the new system is supposed here; it is C70."
  },
  {
   "property": "C78",
   "status": "proved",
   "theorems": [
    "C78_same_data"
   ],
   "note": "Both calculations are supposed to be accepted (C70) and sensible (C57). Example C78_applies is in PropsWindow.v."
  },
  {
   "property": "C79",
   "status": "partial",
   "theorems": [
    "C79_shift",
    "C79_window_partial",
    "C79_refuted"
   ],
   "note": "The shift holds in full (C79_shift). Chosen steps: REFUTED in general by C79_refuted: a storage with charge limits that change over time is accepted as a whole and when cut by hand, but not with chosen steps. Holds by C79_window_partial if the data is valid for chosen steps (charge limits given as numbers)."
  },
  {
   "property": "C80",
   "status": "partial",
   "theorems": [
    "C80_sizes",
    "C80_listing_partial",
    "C80_shown",
    "C80_shown_rows",
    "C80_refuted"
   ],
   "note": "The sizes (C80_sizes) and the lines (C80_shown for the first row with sums over whole variables, C80_shown_rows for every row without sums) are proved in general. The listings are REFUTED in general by C80_refuted: a flow labelled OnOff in a component with on/off parameters is missing from them. They are complete by C80_listing_partial if no label of a flow or effect is one of the names the library uses inside a component or effect."
  },
  {
   "property": "C81",
   "status": "partial",
   "theorems": [
    "C81_rules",
    "C81_solutions_partial",
    "C81_accepted_partial",
    "C81_refuted"
   ],
   "note": "REFUTED in general by C81_refuted: a storage renamed to Tank_initial beside a storage Tank makes flixOpt refuse the system. If the renamed system is accepted, solutions and objective values are the same (C81_solutions_partial, for sensible data, C57); it is accepted if the new labels are chosen well in the sense of C70 (C81_accepted_partial)."
  },
  {
   "property": "C82",
   "status": "partial",
   "theorems": [
    "C82_text",
    "C82_cut",
    "C82_saved",
    "C82_untorn",
    "C82_once_partial",
    "C82_refuted",
    "C82_lost"
   ],
   "note": "REFUTED in general by C82_refuted: a run under a name used before that stops after its results file leaves new results beside old data, and they are loaded together. C82_once_partial: never a mixture if the name is used once. C82_untorn: in every history results and data are each complete. C82_lost: a save whose values cannot be converted makes everything saved under the name before unreadable, because the file is emptied first."
  },
  {
   "property": "C83",
   "status": "proved",
   "theorems": [
    "C83_plans",
    "C83_solvable",
    "C83_optimum",
    "C83_limits_matter"
   ],
   "note": "Needs that quantities of the two groups and totals have different names (decided by separate_b) and that effects do not pass on to themselves. C83_limits_matter: with a limit on an effect the statement is false. The three programs are assumed to be accepted (see C70)."
  },
  {
   "property": "C84",
   "status": "proved",
   "theorems": [
    "C84_gurobi",
    "C84_cbc",
    "C84_others",
    "C84_reported",
    "C84_surroundings"
   ],
   "note": "Log texts are ASCII; which lines a solver writes is outside the model. A cbc log with the line about integers but none about the size raises TypeError (part of C84_cbc)."
  },
  {
   "property": "C85",
   "status": "proved",
   "theorems": [
    "C85_solutions",
    "C85_optimum",
    "C85_accepted"
   ],
   "note": "Factors are positive and no name may stand for two quantities with different factors (`unambiguous`, checkable on labels); C85_accepted uses the conditions of C70."
  },
  {
   "property": "C86",
   "status": "proved",
   "theorems": [
    "C86_mixture",
    "C86_linear",
    "C86_improvement",
    "C86_optima"
   ],
   "note": "the mixture is a plan in the sense of C57; same_decisions and no_decisions are spelled out in PropsMix.v"
  },
  {
   "property": "C87",
   "status": "proved",
   "theorems": [
    "C87_shows",
    "C87_written",
    "C87_compare",
    "C87_exact",
    "C87_order",
    "C87_system",
    "C87_flows"
   ],
   "note": "the square root behind the standard deviation and numpy on arrays of truth values are arguments; C87_case_matters shows that labels differing only in case make the order visible"
  },
  {
   "property": "C88",
   "status": "partial",
   "theorems": [
    "C88_plan_partial",
    "C88_never_better_partial",
    "C88_refuted"
   ],
   "note": "REFUTED in general by C88_refuted (limits on totals count anew in every segment: a quota of 3 feeds two segments of 3, the full problem has no solution); holds by the _partial theorems for systems without investments, without limits on totals, durations or starts, without on/off parameters of whole components, and without segments cut short"
  },
  {
   "property": "C89",
   "status": "partial",
   "theorems": [
    "C89_plots_partial",
    "C89_balanced_partial",
    "C89_storage_partial",
    "C89_form",
    "C89_refused",
    "C89_refuted"
   ],
   "note": "REFUTED for all documented modes by C89_refuted (Matplotlib refuses areas, the default mode); holds for the modes each engine draws, under the conditions on names and histories of C28, C49 and C66, by C89_plots_partial, C89_balanced_partial and C89_storage_partial. Colours are a named scale; for a list of the wrong length see C89_refused. Layout, titles, saving and showing are not modelled"
  },
  {
   "property": "C90",
   "status": "partial",
   "theorems": [
    "C90_plans_partial",
    "C90_demand_partial",
    "C90_dearer_partial",
    "C90_less_partial",
    "C90_refuted"
   ],
   "note": "REFUTED in general by C90_refuted (a least amount of costs makes a system impossible at low prices and possible at high ones); holds by the _partial theorems if operational costs are not limited and not passed on to other effects. Sensible data and distinct names of totals are assumed as in C57 and C88."
  },
  {
   "property": "C91",
   "status": "proved",
   "theorems": [
    "C91_optimal",
    "C91_same_cost"
   ],
   "note": "The condition that nothing connects the steps is part of the claim (memoryless); C88_applies shows a system with a storage where the combined result costs 18 and the optimum is at most 6. Assumed as in C57 and C88: sensible data, distinct names of totals, overlaps that end within the horizon; besides, every segment has at least two steps."
  },
  {
   "property": "C92",
   "status": "partial",
   "theorems": [
    "C92_asked",
    "C92_asked_once",
    "C92_empty",
    "C92_shared",
    "C92_figures_partial",
    "C92_unanswered",
    "C92_figures_refuted",
    "C92_warned_partial",
    "C92_warned_refuted",
    "C92_console_refuted"
   ],
   "note": "C92_asked: program, settings and log file of every call. REFUTED in general: C92_figures_refuted (the solver object is shared, so an earlier calculation reports the figures of the last use, see C92_shared; the segments of a segmented calculation always share one), C92_warned_refuted (CPLEX, CBC and GLPK never warn), C92_console_refuted (HiGHS always shows its output). Holds if the solver was not used since (C92_figures_partial), for Gurobi and HiGHS (C92_warned_partial) and for all but HiGHS (C92_asked)."
  },
  {
   "property": "C93",
   "status": "proved",
   "theorems": [
    "C93_limits",
    "C93_bounded",
    "C93_optimum",
    "C93_circle",
    "C93_paid"
   ],
   "note": "C93_limits: rates, sizes and totals are bounded by the data; C93_bounded: the objective is bounded below; C93_optimum: an optimal solution exists, over the rationals, and is a cheapest plan. C93_circle and C93_paid: without in_order or fair_penalties a system can be unbounded."
  },
  {
   "property": "C94",
   "status": "proved",
   "theorems": [
    "C94_value",
    "C94_wider",
    "C94_idle",
    "C94_segmented",
    "C94_prices",
    "C94_between"
   ],
   "note": "The conditions of C72, C77, C88 and C90, each of which is shown there to be needed, are part of the claim, as are those of C93."
  },
  {
   "property": "C95",
   "status": "partial",
   "theorems": [
    "C95_drawn_partial",
    "C95_never_refused",
    "C95_refuted",
    "C95_unsaved_refuted"
   ],
   "note": "REFUTED in general by C95_refuted (the network is not returned once it is saved or shown) and C95_unsaved_refuted (with False for the path it is saved as network.html if it is shown); what is drawn, saved, opened and returned is given by C95_drawn_partial if names differ (needed: C68_refuted), and C95_never_refused needs no names."
  },
  {
   "property": "C96",
   "status": "proved",
   "theorems": [
    "C96_mixture",
    "C96_convex"
   ],
   "note": "The conditions (equal decisions, or none to be taken; limits of rates may differ where the size is given) are part of the claim; C96_decisions_matter shows that a system with an on/off decision can be operated at both ends and not in between."
  },
  {
   "property": "C97",
   "status": "proved",
   "theorems": [
    "C97_once",
    "C97_calls",
    "C97_file",
    "C97_lines",
    "C97_console"
   ],
   "note": "Python's logging (levels, handlers) is modelled as documented; whether a file can be opened is an argument. C97_other_ends shows what the console does with other ends of lines."
  },
  {
   "property": "C98",
   "status": "proved",
   "theorems": [
    "C98_units",
    "C98_optimum",
    "C98_refuted"
   ],
   "note": "For sensible data whose variable names do not clash, and a factor that keeps EPSILON below 1. C98_refuted: without converting EPSILON the claim is false (a plant that supplies 5 W: 0.005 kW works, 0.000005 MW is below EPSILON). Examples C98_applies, C98_applies_1, C98_lamp."
  },
  {
   "property": "C99",
   "status": "partial",
   "theorems": [
    "C99_finer_partial",
    "C99_best_partial",
    "C99_accepted_partial",
    "C99_refuted",
    "C99_cycle_refuted"
   ],
   "note": "REFUTED in general by C99_refuted (a storage with losses per hour: a step of h hours takes away the share l*h of the content at its beginning, two half steps take away less) and C99_cycle_refuted (initial charge 'lastValueOfSim' ties the beginning to the level one step before the end); holds by C99_finer_partial and C99_best_partial without start-up effects, storage losses over time, relative storage limits in the form of arrays and 'lastValueOfSim'; that the finer system is accepted follows from valid data and labels (C99_accepted_partial). Examples C99_applies, C99_accepts."
  }
 ]
}