{"id": "C01", "title": "Bus balance", "statement": "In every solution accepted by the generated model, in a system whose buses have different labels, at every bus and every time step, the flow rates delivered into the bus plus excess_input equal the flow rates taken from it plus excess_output; excess terms are non-negative and are absent when the bus has no excess penalty.", "quantifier": "all flow systems whose modelling succeeds, all time index selections, all feasible points, all buses, all time steps", "why_tests_cant": "Tests solve a handful of fixed systems; the claim is about every system, every horizon and every feasible point of the generated MILP, including ones no solver run visits.", "anchors": ["flixOpt/elements.py:BusModel.do_modeling", "flixOpt/elements.py:Component.register_flows_in_bus", "flixOpt/flow_system.py:FlowSystem.buses"]}
{"id": "C02", "title": "Storage energy balance", "statement": "For every storage and time step, charge_state(t+1) = charge_state(t)*(1 - loss(t)*dt(t)) + charging(t)*eta_charge(t)*dt(t) - discharging(t)/eta_discharge(t)*dt(t), hence the stored energy at any time is the compounded initial energy plus compounded net inputs; netto_discharge = discharging - charging.", "quantifier": "all systems, storages, horizons, time step lengths, feasible points", "why_tests_cant": "Tests solve a handful of fixed systems; the claim is about every system, every horizon and every feasible point of the generated MILP, including ones no solver run visits.", "anchors": ["flixOpt/components.py:StorageModel.do_modeling"]}
{"id": "C03", "title": "Storage level limits", "statement": "Every charge state, including the one after the last time step, stays within relative_minimum*capacity and relative_maximum*capacity, where capacity is the given number or, with an investment, the chosen size.", "quantifier": "all systems, storages, n+1 charge states, feasible points", "why_tests_cant": "Tests solve a handful of fixed systems; the claim is about every system, every horizon and every feasible point of the generated MILP, including ones no solver run visits.", "anchors": ["flixOpt/components.py:StorageModel.absolute_charge_state_bounds", "flixOpt/features.py:InvestmentModel._create_bounds_for_defining_variable"]}
{"id": "C04", "title": "Initial and final charge state", "statement": "A numeric initial_charge_state fixes the first charge state; minimal/maximal_final_charge_state bound the charge state after the last time step; with 'lastValueOfSim' the storage ends at the level at which it started.", "quantifier": "all storages, all settings of the three arguments, all feasible points", "why_tests_cant": "Tests solve a handful of fixed systems; the claim is about every system, every horizon and every feasible point of the generated MILP, including ones no solver run visits.", "anchors": ["flixOpt/components.py:StorageModel._model_initial_and_final_charge_state", "flixOpt/components.py:Storage"]}
{"id": "C05", "title": "Linear conversion", "statement": "For every conversion equation of a LinearConverter and every time step, the factor-weighted sum of its input flow rates equals the factor-weighted sum of its output flow rates, whatever order Python iterates its sets in.", "quantifier": "all converters, factor dictionaries, time steps, set iteration orders, feasible points", "why_tests_cant": "Tests solve a handful of fixed systems; the claim is about every system, every horizon and every feasible point of the generated MILP, including ones no solver run visits.", "anchors": ["flixOpt/components.py:LinearConverterModel.do_modeling"]}
{"id": "C06", "title": "Named converters", "statement": "Boiler, Power2Heat, HeatPump, CoolingTower, CHP and HeatPumpWithSource enforce their documented efficiency relations; a HeatPumpWithSource conserves energy (heat = electricity + source heat).", "quantifier": "all parameter values for which construction succeeds, time steps, feasible points", "why_tests_cant": "Tests solve a handful of fixed systems; the claim is about every system, every horizon and every feasible point of the generated MILP, including ones no solver run visits.", "anchors": ["flixOpt/linear_converters.py"]}
{"id": "C07", "title": "Piecewise linear operation", "statement": "With segmented factors, at every time step either all flows of the converter lie on one common segment with one common interpolation weight, or (only if the converter may be off) all of them are zero.", "quantifier": "all segment tables, time steps, feasible points", "why_tests_cant": "Tests solve a handful of fixed systems; the claim is about every system, every horizon and every feasible point of the generated MILP, including ones no solver run visits.", "anchors": ["flixOpt/features.py:MultipleSegmentsModel", "flixOpt/features.py:SegmentModel", "flixOpt/components.py:LinearConverterModel.do_modeling"]}
{"id": "C08", "title": "Transmission losses", "statement": "out(t) = in(t)*(1 - relative_losses(t)) - absolute_losses(t)*on(t) in each direction, both directions have the same invested size, and with the default setting they are never used in the same time step.", "quantifier": "all transmissions, loss series, time steps, feasible points", "why_tests_cant": "Tests solve a handful of fixed systems; the claim is about every system, every horizon and every feasible point of the generated MILP, including ones no solver run visits.", "anchors": ["flixOpt/components.py:TransmissionModel"]}
{"id": "C09", "title": "Flow rate limits", "statement": "Without on/off behaviour a flow rate stays within relative_minimum(t)*size and relative_maximum(t)*size at every step, for a given size, a fixed invested size and a variable invested size alike.", "quantifier": "all flows, bounds series, time steps, feasible points", "why_tests_cant": "Tests solve a handful of fixed systems; the claim is about every system, every horizon and every feasible point of the generated MILP, including ones no solver run visits.", "anchors": ["flixOpt/elements.py:FlowModel.do_modeling", "flixOpt/elements.py:FlowModel.absolute_flow_rate_bounds"]}
{"id": "C10", "title": "Fixed profiles", "statement": "A flow with fixed_relative_profile has flow_rate(t) = profile(t)*size at every step (when it has no on/off behaviour), where size is the given or the invested size.", "quantifier": "all flows, profiles, time steps, feasible points", "why_tests_cant": "Tests solve a handful of fixed systems; the claim is about every system, every horizon and every feasible point of the generated MILP, including ones no solver run visits.", "anchors": ["flixOpt/elements.py:FlowModel", "flixOpt/features.py:InvestmentModel._create_bounds_for_defining_variable"]}
{"id": "C11", "title": "Investment sizing", "statement": "A mandatory fixed investment has exactly its size, a mandatory variable one lies in [minimum_size, maximum_size], an optional fixed one is 0 or its size, an optional variable one is 0 or within [max(epsilon, minimum_size), maximum_size], according to isInvested.", "quantifier": "all InvestParameters, feasible points", "why_tests_cant": "Tests solve a handful of fixed systems; the claim is about every system, every horizon and every feasible point of the generated MILP, including ones no solver run visits.", "anchors": ["flixOpt/features.py:InvestmentModel", "flixOpt/interface.py:InvestParameters"]}
{"id": "C12", "title": "Optional investments can be declined", "statement": "An optional investment is never forced by its own parameters: not investing with zero flow is compatible with the constraints created for the flow.", "quantifier": "all optional InvestParameters and flow parameters", "why_tests_cant": "Tests solve a handful of fixed systems; the claim is about every system, every horizon and every feasible point of the generated MILP, including ones no solver run visits.", "anchors": ["flixOpt/elements.py:FlowModel.absolute_flow_rate_bounds", "flixOpt/features.py:InvestmentModel"]}
{"id": "C13", "title": "Flow on/off coupling", "statement": "For a flow with on/off behaviour, on(t)=0 forces flow_rate(t)=0 and on(t)=1 forces flow_rate(t) to lie between max(epsilon, lower bound) and the upper bound; with an investment the limits follow the invested size.", "quantifier": "all flows with OnOffParameters (given or induced), time steps, feasible points", "why_tests_cant": "Tests solve a handful of fixed systems; the claim is about every system, every horizon and every feasible point of the generated MILP, including ones no solver run visits.", "anchors": ["flixOpt/features.py:OnOffModel._add_on_constraints", "flixOpt/features.py:InvestmentModel._create_bounds_for_defining_variable"]}
{"id": "C14", "title": "Component on/off coupling", "statement": "A component with OnOffParameters is off exactly when all of its flows are zero; every flow of it obtains an on variable.", "quantifier": "all components with any number of flows, time steps, feasible points", "why_tests_cant": "Tests solve a handful of fixed systems; the claim is about every system, every horizon and every feasible point of the generated MILP, including ones no solver run visits.", "anchors": ["flixOpt/elements.py:ComponentModel.do_modeling", "flixOpt/features.py:OnOffModel._add_on_constraints"]}
{"id": "C15", "title": "Switch-on accounting", "statement": "switchOn(t)=1 exactly when the state goes from off to on between t-1 and t (t=0 compares with the state before the horizon), switchOff likewise, and nrSwitchOn counts the starts and respects switch_on_total_max.", "quantifier": "all on/off patterns, horizons, previous states, feasible points", "why_tests_cant": "Tests solve a handful of fixed systems; the claim is about every system, every horizon and every feasible point of the generated MILP, including ones no solver run visits.", "anchors": ["flixOpt/features.py:OnOffModel._add_switch_constraints"]}
{"id": "C16", "title": "Consecutive on/off hours", "statement": "The consecutive-hours variable equals the hours since the state was entered (including hours before the horizon) and 0 otherwise; runs never exceed the maximum and every run that ends inside the horizon is at least the minimum long; conversely every pattern obeying these rules is admitted by the constraints.", "quantifier": "all binary patterns, step lengths, min/max series, previous durations, horizon lengths", "why_tests_cant": "The constraint system is a big-M encoding; its equivalence to the run-length rule quantifies over exponentially many patterns and all step lengths.", "anchors": ["flixOpt/features.py:OnOffModel._get_duration_in_hours"]}
{"id": "C17", "title": "Totals and load factors", "statement": "totalOnHours = sum of on(t)*dt(t) within its limits, sumFlowHours = sum of flow_rate(t)*dt(t) within its limits, and load_factor_min*size*T <= sumFlowHours <= load_factor_max*size*T with T the length of the horizon.", "quantifier": "all flows/components, horizons, feasible points", "why_tests_cant": "Tests solve a handful of fixed systems; the claim is about every system, every horizon and every feasible point of the generated MILP, including ones no solver run visits.", "anchors": ["flixOpt/elements.py:FlowModel._create_bounds_for_load_factor", "flixOpt/features.py:OnOffModel.do_modeling"]}
{"id": "C18", "title": "Mutually exclusive flows", "statement": "Of the flows listed as not simultaneously usable (storage charging/discharging, source-and-sink, transmission directions, or user list) at most one is non-zero at any time step.", "quantifier": "all components, lists of two or more flows, time steps, feasible points", "why_tests_cant": "Tests solve a handful of fixed systems; the claim is about every system, every horizon and every feasible point of the generated MILP, including ones no solver run visits.", "anchors": ["flixOpt/features.py:PreventSimultaneousUsageModel", "flixOpt/elements.py:ComponentModel.do_modeling"]}
{"id": "C19", "title": "Operational effect accounting", "statement": "For every effect and time step, the operation total equals the sum over all flows of value(t)*flow_rate(t)*dt(t), plus switch-on and running-hour effects of flows and components, plus the configured fractions of other effects' operation totals; the operation sum is the sum over time.", "quantifier": "all systems, effects, effect dictionaries (with and without the standard effect), time steps, feasible points", "why_tests_cant": "Tests solve a handful of fixed systems; the claim is about every system, every horizon and every feasible point of the generated MILP, including ones no solver run visits.", "anchors": ["flixOpt/effects.py:EffectCollectionModel", "flixOpt/features.py:ShareAllocationModel", "flixOpt/features.py:SingleShareModel"]}
{"id": "C20", "title": "Investment effect accounting", "statement": "For every effect the invest total equals fixed effects (if invested) + specific effects*size + divest effects (if optional and not invested) + segmented effects over all investments, plus configured fractions of other effects' invest totals.", "quantifier": "all systems, investments, effects, feasible points", "why_tests_cant": "Tests solve a handful of fixed systems; the claim is about every system, every horizon and every feasible point of the generated MILP, including ones no solver run visits.", "anchors": ["flixOpt/features.py:InvestmentModel._create_shares", "flixOpt/effects.py:EffectCollectionModel"]}
{"id": "C21", "title": "Objective", "statement": "The minimised objective equals the operation total plus the invest total of the objective effect plus the penalty total, and the penalty total equals the sum over all buses and steps of penalty(t)*dt(t)*(excess_input+excess_output).", "quantifier": "all systems, feasible points", "why_tests_cant": "Tests solve a handful of fixed systems; the claim is about every system, every horizon and every feasible point of the generated MILP, including ones no solver run visits.", "anchors": ["flixOpt/effects.py:EffectCollectionModel.do_modeling", "flixOpt/math_modeling.py:PyomoModel.translate_objective"]}
{"id": "C22", "title": "Effect limits", "statement": "Total, operation, invest and per-hour limits of an effect hold in every accepted solution; the per-hour limits scale with the step length.", "quantifier": "all effects, limits, steps, feasible points", "why_tests_cant": "Tests solve a handful of fixed systems; the claim is about every system, every horizon and every feasible point of the generated MILP, including ones no solver run visits.", "anchors": ["flixOpt/features.py:ShareAllocationModel.do_modeling", "flixOpt/effects.py:EffectModel"]}
{"id": "C23", "title": "Equation assembly", "statement": "For any sequence of add_summand/add_constant calls that succeeds, row i of the equation handed to the solver reads: sum of factor(i)*variable(index(i)) over the summands (scalars broadcast) equals / is at most the sum of the constants at i; the number of rows is the common length of all non-scalar parts; a call with an incompatible length is rejected.", "quantifier": "all call sequences, all lengths, all index selections", "why_tests_cant": "The claim is about every order of calls, including failing ones; a test replays one order.", "anchors": ["flixOpt/math_modeling.py:_Constraint", "flixOpt/math_modeling.py:Summand", "flixOpt/math_modeling.py:PyomoModel"]}
{"id": "C24", "title": "Rejected additions leave an equation unchanged", "statement": "When add_summand or add_constant raises, the equation handed to the solver afterwards is the same as if the call had not been made.", "quantifier": "all call sequences with failing calls", "why_tests_cant": "The claim is about every order of calls, including failing ones; a test replays one order.", "anchors": ["flixOpt/math_modeling.py:_Constraint.add_summand", "flixOpt/math_modeling.py:_Constraint.add_constant"]}
{"id": "C25", "title": "Summing over chosen indices", "statement": "add_summand(..., indices, as_sum=True) contributes the sum of factor*variable over exactly the given indices.", "quantifier": "all index lists, factors, variables", "why_tests_cant": "The input space (lengths, labels, nesting, values) is unbounded; a test samples a few points.", "anchors": ["flixOpt/math_modeling.py:SumOfSummand", "flixOpt/math_modeling.py:PyomoModel._summand_math_expression"]}
{"id": "C26", "title": "Variable bounds reach the solver", "statement": "Each entry of a variable is constrained by its own lower and upper bound, is binary if declared so, or is fixed to its fixed value, which must respect the declared bounds at construction.", "quantifier": "all variables, lengths, scalar or vector bounds", "why_tests_cant": "The input space (lengths, labels, nesting, values) is unbounded; a test samples a few points.", "anchors": ["flixOpt/math_modeling.py:Variable", "flixOpt/math_modeling.py:PyomoModel.translate_variable"]}
{"id": "C27", "title": "Nothing is lost or duplicated on the way to the solver", "statement": "The solver receives exactly the variables and constraints of all models in the model tree, each once; if two of them share a label the calculation fails instead of dropping one.", "quantifier": "all model trees (any depth and branching), all labels", "why_tests_cant": "The input space (lengths, labels, nesting, values) is unbounded; a test samples a few points.", "anchors": ["flixOpt/structure.py:SystemModel.all_variables", "flixOpt/structure.py:SystemModel.sub_models", "flixOpt/structure.py:ElementModel.all_sub_models", "flixOpt/structure.py:ElementModel.all_inequations"]}
{"id": "C28", "title": "Results report the solver's values", "statement": "After solving, each variable's result is the value the solver returned for it (binaries as 0/1) under its label in the nested results.", "quantifier": "all solver answers within integrality tolerance, all model trees", "why_tests_cant": "The input space (lengths, labels, nesting, values) is unbounded; a test samples a few points.", "anchors": ["flixOpt/math_modeling.py:PyomoModel.solve", "flixOpt/structure.py:ElementModel.results"]}
{"id": "C29", "title": "Time series selection", "statement": "The data a calculation sees for a parameter is the user's data at the selected time steps, after any history of earlier calculations, index selections and aggregations.", "quantifier": "all histories of transform/activate/aggregate operations, all data", "why_tests_cant": "The claim is about every order of calls, including failing ones; a test replays one order.", "anchors": ["flixOpt/core.py:TimeSeries", "flixOpt/structure.py:_create_time_series"]}
{"id": "C30", "title": "Effect registration", "statement": "After any sequence of add_effects calls, failing ones included, labels are unique and at most one standard and at most one objective effect exist; a failing call changes nothing.", "quantifier": "all histories of add_effects", "why_tests_cant": "The claim is about every order of calls, including failing ones; a test replays one order.", "anchors": ["flixOpt/effects.py:EffectCollection.add_effect"]}
{"id": "C31", "title": "Component registration", "statement": "After any sequence of add_components calls component labels are unique and each flow of each registered component is registered once at its bus, on the side matching its direction; no element is silently shadowed by another with the same label.", "quantifier": "all histories of add_components/add_effects", "why_tests_cant": "The claim is about every order of calls, including failing ones; a test replays one order.", "anchors": ["flixOpt/flow_system.py:FlowSystem.add_components", "flixOpt/flow_system.py:FlowSystem._check_if_element_is_unique", "flixOpt/flow_system.py:FlowSystem.all_elements"]}
{"id": "C32", "title": "Time step lengths", "statement": "The step lengths used by a calculation are the differences of consecutive selected time stamps, the last one reaching to the next stamp of the system; they are non-negative for increasing selections and add up to the time between start and end; the last step of the system lasts last_time_step_hours hours.", "quantifier": "all time axes, all index selections", "why_tests_cant": "The input space (lengths, labels, nesting, values) is unbounded; a test samples a few points.", "anchors": ["flixOpt/flow_system.py:FlowSystem.__init__", "flixOpt/flow_system.py:FlowSystem.get_time_data_from_indices", "flixOpt/utils.py:check_time_series"]}
{"id": "C33", "title": "Segmentation covers the horizon", "statement": "The segments of a SegmentedCalculation cover every requested time step, and after dropping overlaps every step is covered exactly once, in order.", "quantifier": "all horizon lengths, segment lengths, overlaps, time_indices", "why_tests_cant": "The input space (lengths, labels, nesting, values) is unbounded; a test samples a few points.", "anchors": ["flixOpt/calculation.py:SegmentedCalculation"]}
{"id": "C34", "title": "Segment hand-over", "statement": "Each segment starts from the state (previous flow rates, storage levels) its predecessor reached at exactly that time, so that the combined storage trajectory satisfies the energy balance across segment borders.", "quantifier": "all horizon lengths, segment lengths, overlaps, solver answers", "why_tests_cant": "The claim is about every order of calls, including failing ones; a test replays one order.", "anchors": ["flixOpt/calculation.py:SegmentedCalculation._transfer_start_values", "flixOpt/calculation.py:SegmentedCalculation.do_modeling_and_solve"]}
{"id": "C35", "title": "Segmented runs restore the system", "statement": "After a SegmentedCalculation the flow system has the initial values it had before, also when a segment fails.", "quantifier": "all failure points", "why_tests_cant": "Requires every crash point of the loop.", "anchors": ["flixOpt/calculation.py:SegmentedCalculation._reset_start_values"]}
{"id": "C36", "title": "Combined results", "statement": "In the combined result of a segmented calculation the value of a time series at step t is the one computed by the segment responsible for t; no series is dropped and lengths equal the horizon (plus one for charge states).", "quantifier": "all numbers of segments, lengths, nested result dictionaries", "why_tests_cant": "The input space (lengths, labels, nesting, values) is unbounded; a test samples a few points.", "anchors": ["flixOpt/calculation.py:_combine_nested_arrays"]}
{"id": "C37", "title": "Aggregation index pairs", "statement": "The index pairs equated by an aggregated calculation connect only steps of different periods assigned to the same cluster at the same offset, and connect all such steps except the first step of each period.", "quantifier": "all cluster orders, period lengths, incomplete last periods", "why_tests_cant": "The input space (lengths, labels, nesting, values) is unbounded; a test samples a few points.", "anchors": ["flixOpt/aggregation.py:Aggregation.get_cluster_indices", "flixOpt/aggregation.py:Aggregation.get_equation_indices"]}
{"id": "C38", "title": "Aggregated variables agree", "statement": "In every accepted solution of an aggregated calculation, equated variables agree at paired steps up to the corrections of binaries, whose number per variable is at most the configured percentage.", "quantifier": "all aggregations, feasible points", "why_tests_cant": "Tests solve a handful of fixed systems; the claim is about every system, every horizon and every feasible point of the generated MILP, including ones no solver run visits.", "anchors": ["flixOpt/aggregation.py:AggregationModel"]}
{"id": "C39", "title": "Aggregation weights", "statement": "The weights of the members of an aggregation group add up to one, explicit weights are used as given and all other series get weight one.", "quantifier": "all collections of time series", "why_tests_cant": "The input space (lengths, labels, nesting, values) is unbounded; a test samples a few points.", "anchors": ["flixOpt/aggregation.py:TimeSeriesCollection"]}
{"id": "C40", "title": "Saved data is JSON-compatible", "statement": "Converting any nested structure of supported values with use_numpy=False yields only JSON types, with use_numpy=True besides arrays of numbers, and does not change numbers; unsupported values raise.", "quantifier": "all nested structures of any depth", "why_tests_cant": "The input space (lengths, labels, nesting, values) is unbounded; a test samples a few points.", "anchors": ["flixOpt/structure.py:copy_and_convert_datatypes"]}
{"id": "C41", "title": "Reloaded results equal the saved ones", "statement": "Saving results and loading them again yields the same nested structure with the same numeric arrays.", "quantifier": "all nested result structures", "why_tests_cant": "The input space (lengths, labels, nesting, values) is unbounded; a test samples a few points.", "anchors": ["flixOpt/structure.py:copy_and_convert_datatypes", "flixOpt/utils.py:convert_numeric_lists_to_arrays", "flixOpt/results.py:CalculationResults"]}
{"id": "C42", "title": "Flattened results keep every entry", "statement": "Flattening nested results keeps one entry for every leaf, under the joined key path.", "quantifier": "all nested dictionaries and key sets", "why_tests_cant": "The input space (lengths, labels, nesting, values) is unbounded; a test samples a few points.", "anchors": ["flixOpt/results.py:flatten_dict", "flixOpt/utils.py:label_is_valid"]}
{"id": "C43", "title": "Previous operating time", "statement": "The consecutive duration computed from previous binary states is the length of the trailing run of ones, weighted with the step lengths, and 0 if the last state is 0.", "quantifier": "all binary histories, step lengths", "why_tests_cant": "The input space (lengths, labels, nesting, values) is unbounded; a test samples a few points.", "anchors": ["flixOpt/features.py:OnOffModel.get_consecutive_duration"]}
{"id": "C44", "title": "Previous component state", "statement": "A component counts as previously on if any of its flows had a non-zero previous flow rate.", "quantifier": "all numbers of flows and previous values", "why_tests_cant": "The input space (lengths, labels, nesting, values) is unbounded; a test samples a few points.", "anchors": ["flixOpt/features.py:OnOffModel._previous_on_values"]}
{"id": "C45", "title": "Effect values are read-only", "statement": "Building and transforming elements does not change the effect dictionaries passed by the user, so one dictionary may be shared by several elements with the same meaning for each.", "quantifier": "all sharing patterns and transform histories", "why_tests_cant": "The claim is about every order of calls, including failing ones; a test replays one order.", "anchors": ["flixOpt/effects.py:effect_values_to_time_series"]}
{"id": "C46", "title": "Repeated calculations", "statement": "Modelling the same flow system again (same time indices) hands the same optimisation problem to the solver, although modelling adds default on/off and invest parameters to elements.", "quantifier": "all flow systems, all numbers of repetitions", "why_tests_cant": "The claim is about every order of calls, including failing ones; a test replays one order.", "anchors": ["flixOpt/elements.py:ComponentModel.do_modeling", "flixOpt/components.py:TransmissionModel.do_modeling", "flixOpt/calculation.py:FullCalculation"]}
{"id": "C47", "title": "Configuration merging", "statement": "Merging a user configuration into the defaults yields the user's value where given and the default elsewhere, at every nesting level.", "quantifier": "all nested dictionaries", "why_tests_cant": "The input space (lengths, labels, nesting, values) is unbounded; a test samples a few points.", "anchors": ["flixOpt/config.py:merge_configs"]}
{"id": "C48", "title": "Generated time axes", "statement": "create_datetime_array returns start + i*interval for i < steps, or all such stamps before end.", "quantifier": "all starts, intervals, step counts, ends", "why_tests_cant": "The input space (lengths, labels, nesting, values) is unbounded; a test samples a few points.", "anchors": ["flixOpt/flow_system.py:create_datetime_array"]}
{"id": "C49", "title": "Balance tables add up", "statement": "The rows of a bus result table with the default signs (inputs negative, outputs positive, excess included) add up to zero at each time step.", "quantifier": "all buses and feasible points", "why_tests_cant": "Tests solve a handful of fixed systems; the claim is about every system, every horizon and every feasible point of the generated MILP, including ones no solver run visits.", "anchors": ["flixOpt/results.py:BusResults", "flixOpt/results.py:CalculationResults"]}
{"id": "C50", "title": "Feasible systems stay feasible", "statement": "Adding default on/off bookkeeping does not exclude operation: every flow schedule that is zero or within the positive limits at each step extends to values of the on, switch and hour variables satisfying all on/off constraints.", "quantifier": "all schedules, horizons, limits", "why_tests_cant": "Tests solve a handful of fixed systems; the claim is about every system, every horizon and every feasible point of the generated MILP, including ones no solver run visits.", "anchors": ["flixOpt/features.py:OnOffModel"]}
{"id": "C51", "title": "Earlier calculations leave no trace", "statement": "Calculations of other time indices made before with the same flow system do not change the optimisation problem a later calculation hands to the solver.", "quantifier": "all flow systems, all histories of earlier calculations", "why_tests_cant": "The claim is about every order of calls, including failing ones; a test replays one order.", "anchors": ["flixOpt/elements.py:ComponentModel.do_modeling", "flixOpt/components.py:TransmissionModel.do_modeling"]}
{"id": "C52", "title": "Segmented calculations leave no trace", "statement": "After a segmented calculation has finished, every later calculation of the flow system hands the solver the problem it would have handed before.", "quantifier": "all flow systems, segmentations, solver answers and later time indices", "why_tests_cant": "The claim is about every order of calls, including failing ones; a test replays one order.", "anchors": ["flixOpt/calculation.py:SegmentedCalculation", "flixOpt/calculation.py:SegmentedCalculation._reset_start_values"]}
{"id": "C53", "title": "Running a segmented calculation again", "statement": "Running the same segmented calculation a second time solves the same segment problems again.", "quantifier": "all flow systems, segmentations and solver answers", "why_tests_cant": "The claim is about every order of calls, including failing ones; a test replays one order.", "anchors": ["flixOpt/calculation.py:SegmentedCalculation.do_modeling_and_solve"]}
{"id": "C54", "title": "Programs are self-contained", "statement": "Every row of the optimisation problem handed to the solver, and its objective, refers only to variables declared in that problem and to entries within their lengths, and no two variables share a label; so the values of the declared variables alone decide which points are feasible and what they cost.", "quantifier": "all flow systems, time indices and aggregation settings for which modelling succeeds; all points", "why_tests_cant": "Tests solve a handful of fixed systems; the claim is about every system, every horizon and every feasible point of the generated MILP, including ones no solver run visits.", "anchors": ["flixOpt/structure.py:SystemModel", "flixOpt/math_modeling.py:MathModel", "flixOpt/math_modeling.py:PyomoModel"]}
{"id": "C55", "title": "Aggregation only restricts", "statement": "Every feasible point of an aggregated calculation is, apart from the value of the penalty total, a feasible point of the full calculation with the same time indices, and its objective is the objective of that point plus the penalty for corrections; so every law of the full calculation holds in aggregated ones too.", "quantifier": "all flow systems, clusterings, aggregation parameters and feasible points", "why_tests_cant": "Tests solve a handful of fixed systems; the claim is about every system, every horizon and every feasible point of the generated MILP, including ones no solver run visits.", "anchors": ["flixOpt/aggregation.py:AggregationModel", "flixOpt/calculation.py:AggregatedCalculation"]}
{"id": "C56", "title": "Flows are not over-constrained", "statement": "The variables and constraints created for a flow admit every schedule its parameters allow: any rates within the limits, any allowed size, any on/off pattern and totals obeying the stated rules can be completed by values for the remaining variables of the flow so that all of them are satisfied.", "quantifier": "all flow systems, flows, parameters (investments with and without segmented effects) and schedules", "why_tests_cant": "Tests solve a handful of fixed systems; the claim is about every system, every horizon and every feasible point of the generated MILP, including ones no solver run visits.", "anchors": ["flixOpt/elements.py:FlowModel", "flixOpt/features.py:InvestmentModel", "flixOpt/features.py:OnOffModel"]}
{"id": "C57", "title": "The program describes exactly the allowed plans", "statement": "For a sensible flow system, the optimisation problem admits a plan (rates, on/off states and starts, sizes and investment decisions, stored energies, excesses, effect totals) with some values of its auxiliary variables exactly if the plan obeys every rule the user stated: the limits of each flow, the on/off rules of flows and components, exclusive flows, conversion, segments, storage and transmission laws, investment rules, bus balances, effect totals with their limits, and the penalty.", "quantifier": "all flow systems with sensible data (distinct bus labels, values for every step, at least two steps), time indices and plans", "why_tests_cant": "Tests solve a handful of fixed systems; the claim is about every system, every horizon and every feasible point of the generated MILP, including ones no solver run visits.", "anchors": ["flixOpt/structure.py:SystemModel", "flixOpt/elements.py", "flixOpt/components.py", "flixOpt/effects.py", "flixOpt/features.py"]}
{"id": "C58", "title": "The optimum is the cheapest allowed plan", "statement": "A solution minimises the objective handed to the solver exactly if no plan obeying the rules is cheaper; the optimisation problem is solvable exactly if some plan obeys the rules, and the objective values of its solutions are the costs such plans can have.", "quantifier": "all flow systems with sensible data, time indices, solutions and plans", "why_tests_cant": "Tests solve a handful of fixed systems; the claim is about every system, every horizon and every feasible point of the generated MILP, including ones no solver run visits.", "anchors": ["flixOpt/structure.py:SystemModel", "flixOpt/effects.py:EffectCollectionModel", "flixOpt/calculation.py:FullCalculation"]}
{"id": "C59", "title": "What a time series returns after any use", "statement": "However often a time series has been activated (with or without aggregated data, accepted or refused) and reset, it returns the aggregated data accepted last since the latest reset if there are any, and otherwise the user's values at the indices activated last; the user's data, label, weight and group never change, and exactly aggregated data without indices or of the wrong length are refused.", "quantifier": "all time series and all sequences of activations and resets", "why_tests_cant": "The claim is about every order of calls, including failing ones; a test replays one order.", "anchors": ["flixOpt/core.py:TimeSeries.activate_indices", "flixOpt/core.py:TimeSeries.active_data", "flixOpt/core.py:TimeSeries.active_data_vector", "flixOpt/core.py:TimeSeries.clear_indices_and_aggregated_data"]}
{"id": "C60", "title": "Loading a configuration", "statement": "Loading a configuration file either puts a complete, well-typed configuration with the values of the file in force or raises and leaves the previous configuration unchanged; assignments of wrongly typed values are refused; exporting and reloading a configuration gives it back; so after any history the configuration in force is complete.", "quantifier": "all configuration files, assignments and sequences of them", "why_tests_cant": "The claim is about every order of calls, including failing ones; a test replays one order.", "anchors": ["flixOpt/config.py:CONFIG.load_config", "flixOpt/config.py:dataclass_from_dict_with_validation", "flixOpt/config.py:ValidatedConfig", "flixOpt/config.py:CONFIG.to_dict"]}
{"id": "C61", "title": "Merging configurations", "statement": "In a merged configuration a path of keys leads to a value exactly if it does in the overrides, or if it does in the defaults and the overrides have no value on the way, at any nesting depth.", "quantifier": "all nested configurations, overrides and paths", "why_tests_cant": "The input space (lengths, labels, nesting, values) is unbounded; a test samples a few points.", "anchors": ["flixOpt/config.py:merge_configs"]}
{"id": "C62", "title": "An aggregated calculation is the full one with ties", "statement": "The problem of an aggregated calculation admits exactly the solutions of the full calculation in which every tied quantity (time-dependent quantities of the chosen components, all of them or the yes/no ones only) has equal values at paired steps, where yes/no quantities may differ at the allowed number of pairs; its objective is that of the full calculation plus the penalty for each deviation. So its optimum is the cheapest such solution, and it can be solved exactly if one exists.", "quantifier": "all flow systems with distinct component labels, clusterings, aggregation parameters, choices of components and solutions", "why_tests_cant": "Tests solve a handful of fixed systems; the claim is about every system, every horizon and every feasible point of the generated MILP, including ones no solver run visits.", "anchors": ["flixOpt/aggregation.py:AggregationModel", "flixOpt/calculation.py:AggregatedCalculation"]}
{"id": "C63", "title": "Combined results of segments obey the laws", "statement": "Each segment of a segmented calculation is the calculation of the original system on the steps of the segment with other start values only, those reached in the previous segment. The combined results obey in every step of the horizon the laws of the original system: bus balances, conversion, segments, transmission, limits and profiles of flows, storage levels, on/off states, exclusive flows and what is charged to the effects; starts and stops are booked rightly, also at the borders of segments.", "quantifier": "all flow systems whose transmissions with absolute losses have some in every segment, segment and overlap lengths, solutions of the segments and steps", "why_tests_cant": "Tests solve a handful of fixed systems; the claim is about every system, every horizon and every feasible point of the generated MILP, including ones no solver run visits.", "anchors": ["flixOpt/calculation.py:SegmentedCalculation", "flixOpt/calculation.py:SegmentedCalculation._transfer_start_values"]}
{"id": "C64", "title": "Run times across segments", "statement": "In the combined results of a segmented calculation no flow runs longer at a time than its maximum or shorter than its minimum consecutive on hours.", "quantifier": "all flow systems, segment and overlap lengths, solutions of the segments and runs", "why_tests_cant": "Tests solve a handful of fixed systems; the claim is about every system, every horizon and every feasible point of the generated MILP, including ones no solver run visits.", "anchors": ["flixOpt/calculation.py:SegmentedCalculation._transfer_start_values", "flixOpt/features.py:OnOffModel"]}
{"id": "C65", "title": "Extraction of results", "statement": "Extracting results under a list of keys from a dict of results gives, in the order of the items, exactly the items under whose value the keys lead to something other than None, each once with what they lead to; with keep_none all items are listed, the others with None.", "quantifier": "all nested result dicts and lists of keys", "why_tests_cant": "The input space (lengths, labels, nesting, values) is unbounded; a test samples a few points.", "anchors": ["flixOpt/results.py:extract_results", "flixOpt/results.py:extract_single_result"]}
{"id": "C66", "title": "Tables of results", "statement": "For every component, bus and flow the table of flow rates has exactly the columns of its flows (and the excess of a bus) having a value further from zero than the threshold, each once, with the flow rates times the factor of the side in the order of time, labelled with the beginnings of the steps, the last row repeated for the end of the last step if asked for. Labels of no element are refused.", "quantifier": "all flow systems, solutions, elements, factors, thresholds and both settings of the last step", "why_tests_cant": "Tests solve a handful of fixed systems; the claim is about every system, every horizon and every feasible point of the generated MILP, including ones no solver run visits.", "anchors": ["flixOpt/results.py:CalculationResults.to_dataframe", "flixOpt/results.py:ComponentResults.to_dataframe", "flixOpt/results.py:BusResults.to_dataframe", "flixOpt/results.py:FlowResults.to_dataframe"]}
{"id": "C67", "title": "Main results show this calculation", "statement": "Once a calculation has been modelled and solved, its main results show its own solution, whatever else is done with the flow system: for each effect the operation, invest and overall totals, the penalty, the objective, each investment with its size under 'invested' if the size exceeds 0.001 and otherwise under 'not invested', and as buses with excess exactly those whose excess adds up to more than 0.001.", "quantifier": "all flow systems, time indices, numbers of calculations on one system, histories of modelling and solving them, and solver answers", "why_tests_cant": "The claim is about every order of calls, including failing ones; a test replays one order.", "anchors": ["flixOpt/structure.py:SystemModel.main_results", "flixOpt/structure.py:SystemModel.solve", "flixOpt/calculation.py:FullCalculation.solve"]}
{"id": "C68", "title": "The network picture", "statement": "network_infos() shows each component and each bus once as a node of its class and each flow as one edge from the bus to the component if the component draws it and from the component to the bus if the component feeds it; both ends of each edge are nodes. For the named components (sources, sinks, storages, transmissions, boilers, heat pumps, ...) the flows run the way their argument names say; a source-and-sink with prevention never does both in a step.", "quantifier": "all flow systems, set iteration orders and feasible points", "why_tests_cant": "Tests solve a handful of fixed systems; the claim is about every system, every horizon and every feasible point of the generated MILP, including ones no solver run visits.", "anchors": ["flixOpt/flow_system.py:FlowSystem.network_infos", "flixOpt/elements.py:Flow.is_input_in_comp", "flixOpt/components.py:SourceAndSink", "flixOpt/linear_converters.py"]}
{"id": "C69", "title": "The order of elements does not matter", "statement": "Whether a list of elements is accepted by a new flow system, and which optimisation problem results (the allowed assignments, their objective values and so the best ones), does not depend on the order in which the elements are added nor on the order in which Python iterates its sets of flows.", "quantifier": "all lists of elements, orders of adding them, iteration orders of sets, time indices and assignments", "why_tests_cant": "Tests solve a handful of fixed systems; the claim is about every system, every horizon and every feasible point of the generated MILP, including ones no solver run visits.", "anchors": ["flixOpt/flow_system.py:FlowSystem.add_elements", "flixOpt/flow_system.py:FlowSystem.buses", "flixOpt/components.py:LinearConverterModel", "flixOpt/structure.py:SystemModel.do_modeling"]}
{"id": "C70", "title": "Valid systems are accepted", "statement": "A flow system with valid data (at least two steps, chosen steps in range, every time series a number or one value per step, effect values addressed to registered effects with no effect twice, storages and transmissions of the right shape, an objective) and well-chosen labels is accepted by every calculation: modelling raises no exception, whatever the iteration order of sets, and the resulting problem has as solutions exactly the plans obeying the rules.", "quantifier": "all flow systems, time indices, configurations and set iteration orders", "why_tests_cant": "Tests solve a handful of fixed systems; the claim is about every system, every horizon and every feasible point of the generated MILP, including ones no solver run visits.", "anchors": ["flixOpt/calculation.py:FullCalculation.do_modeling", "flixOpt/structure.py:SystemModel", "flixOpt/math_modeling.py:Equation.add_summand", "flixOpt/elements.py", "flixOpt/components.py", "flixOpt/features.py", "flixOpt/effects.py"]}
{"id": "C71", "title": "Valid systems stay accepted, also in segments", "statement": "A flow system with valid data and well-chosen labels stays valid whatever problems are built from it: the defaults that modelling writes into its flows and the start values handed over between segments never make a later calculation fail. A segmented calculation of it runs through: only the solver can end it, whatever values the solver returned for earlier segments, and afterwards the flow system is as valid as before. Any window of at least two steps can be calculated.", "quantifier": "all flow systems, histories of calculations, segment and overlap lengths, solver answers and windows", "why_tests_cant": "The claim is about every order of calls, including failing ones; a test replays one order.", "anchors": ["flixOpt/calculation.py:SegmentedCalculation.do_modeling_and_solve", "flixOpt/calculation.py:SegmentedCalculation._transfer_start_values", "flixOpt/calculation.py:SegmentedCalculation._reset_start_values", "flixOpt/elements.py:ComponentModel.do_modeling", "flixOpt/components.py:Transmission"]}
{"id": "C72", "title": "Widening limits never makes the best result worse", "statement": "If limits of a flow system are widened (larger sizes and maximum investments, smaller minima, wider relative limits, flow-hour, load-factor, on/off, storage and effect limits, limits or fixed profiles dropped where the new limits contain them) and nothing else is changed, every solution of the original calculation is a solution of the new one at the same objective value: a solvable calculation stays solvable and the optimum is at least as good.", "quantifier": "all pairs of flow systems differing in limits only, time indices and solutions", "why_tests_cant": "Tests solve a handful of fixed systems; the claim is about every system, every horizon and every feasible point of the generated MILP, including ones no solver run visits.", "anchors": ["flixOpt/elements.py:FlowModel", "flixOpt/features.py:InvestmentModel", "flixOpt/features.py:OnOffModel", "flixOpt/components.py:StorageModel", "flixOpt/effects.py:EffectModel", "flixOpt/interface.py:InvestParameters"]}
{"id": "C73", "title": "Aggregated calculations need even steps and whole periods, and nothing more", "statement": "An aggregated calculation is set up only if all its time steps have one length and a period is a whole number of steps; uneven steps are refused with a ValueError, broken periods with an exception. For a flow system with valid data and well-chosen labels, even steps and whole periods, any clustering of its steps, any choice of its components and any aggregation parameters are accepted.", "quantifier": "all flow systems, time indices, period lengths, clusterings, component selections and aggregation parameters", "why_tests_cant": "Tests solve a handful of fixed systems; the claim is about every system, every horizon and every feasible point of the generated MILP, including ones no solver run visits.", "anchors": ["flixOpt/calculation.py:AggregatedCalculation.do_modeling", "flixOpt/aggregation.py:AggregationModel.do_modeling", "flixOpt/aggregation.py:AggregationModel.equate_indices", "flixOpt/aggregation.py:AggregationParameters"]}
{"id": "C74", "title": "Aggregation takes each time series to the right place and back", "statement": "An aggregated calculation hands to the clustering exactly those parameters of its elements (limits, profiles, efficiencies, conversion factors, losses, values per effect, run-time limits, penalties, effect limits and shares) whose data is not constant, each once, under the label of its element and role, with the values of the chosen steps. If the aggregated data is used, the problem is that of the system in which each of these parameters shows the column that came back under its label in the steps of the calculation, and nothing else is changed. Nothing stops a flow system with valid data and well-chosen labels from being aggregated this way.", "quantifier": "all flow systems, time indices, clusterings and returned columns", "why_tests_cant": "Tests solve a handful of fixed systems; the claim is about every system, every horizon and every feasible point of the generated MILP, including ones no solver run visits.", "anchors": ["flixOpt/calculation.py:AggregatedCalculation.do_modeling", "flixOpt/aggregation.py:TimeSeriesCollection", "flixOpt/core.py:TimeSeries", "flixOpt/structure.py:_create_time_series", "flixOpt/flow_system.py:FlowSystem.all_time_series", "flixOpt/elements.py:Flow.transform_data", "flixOpt/components.py:LinearConverter.transform_data", "flixOpt/effects.py:effect_values_to_time_series"]}
{"id": "C75", "title": "Bars, arranged arrays and heat maps show the data they are given", "statement": "In a stacked bar plot every column has, at every step, one bar as long as the part of its value above zero and one as long as the part below zero, both in its own colour; bars start exactly where the bars of the columns before it end, so they neither overlap nor leave gaps. Arranging an array in columns of k steps is possible for every k above zero; reading the columns one after the other gives the array back, with empty entries at the end of the last column only; other k are refused. A heat map has exactly one cell for every calendar step from the first to the last datum, and the cell shows the mean of exactly the data of that step; steps without data stay empty, or take the value of the nearest earlier (later) step with data if filling is asked for, and then no cell stays empty. Only the documented combinations of period and step are accepted.", "quantifier": "all tables, colours, arrays, numbers of steps per column, time stamps, combinations of period and step, ways of filling and namings of dates", "why_tests_cant": "The input space (lengths, labels, nesting, values) is unbounded; a test samples a few points.", "anchors": ["flixOpt/plotting.py:with_matplotlib", "flixOpt/plotting.py:reshape_to_2d", "flixOpt/plotting.py:heat_map_data_from_df"]}
{"id": "C76", "title": "An area plot draws every column once", "statement": "Every area drawn shows one column of the table in its own colour, with its values (values closer to zero than 1e-5 are drawn as zero); it is stacked above zero only if no value is negative, below zero only if no value is positive, and otherwise drawn as a dashed line. Every column is drawn exactly once.", "quantifier": "all tables and colours", "why_tests_cant": "The input space (lengths, labels, nesting, values) is unbounded; a test samples a few points.", "anchors": ["flixOpt/plotting.py:with_plotly"]}
{"id": "C77", "title": "Adding equipment that may stand idle never makes the best result worse", "statement": "Take a system and add one more component that is allowed to do nothing: a rate of zero is within the limits of its flows, investments may be declined without cost, on/off rules do not ask for running and it was not running before, a store may stay empty, a segmented conversion may be left or starts at zero. Then every solution of the old system is, together with the new component standing idle, a solution of the new system with the same objective value, and the optimum of the new system is at least as good as any result of the old one. New buses, effects of running, starts and sizes do not change this.", "quantifier": "all flow systems, components of every kind added at any place, horizons, choices of steps and solutions", "why_tests_cant": "Tests solve a handful of fixed systems; the claim is about every system, every horizon and every feasible point of the generated MILP, including ones no solver run visits.", "anchors": ["flixOpt/calculation.py:FullCalculation.do_modeling", "flixOpt/features.py:InvestmentModel", "flixOpt/features.py:OnOffModel", "flixOpt/elements.py:FlowModel", "flixOpt/components.py:StorageModel"]}
{"id": "C78", "title": "Only what the data says counts, not how it is written", "statement": "Writing a constant as a number or as an array of equal entries, an array as TimeSeriesData with any group or weight, or a factor as a different but equal fraction changes nothing: for every solution of the one calculation there is one of the other with the same flow rates, charge states, sizes and states and the same objective value. The same holds whenever two calculations agree in the length of every step and in the value of every parameter at every step.", "quantifier": "all pairs of flow systems and choices of steps whose data agrees, and all solutions", "why_tests_cant": "Tests solve a handful of fixed systems; the claim is about every system, every horizon and every feasible point of the generated MILP, including ones no solver run visits.", "anchors": ["flixOpt/core.py:TimeSeries.active_data", "flixOpt/elements.py:FlowModel", "flixOpt/features.py:OnOffModel", "flixOpt/calculation.py:FullCalculation.do_modeling"]}
{"id": "C79", "title": "The time axis may be moved, and chosen steps are a system of their own", "statement": "Moving all time stamps by the same amount changes neither acceptance nor solutions nor objective values. A calculation with chosen time steps, with or without gaps, is accepted exactly as a whole-horizon calculation of the system cut down by hand to these steps (time stamps and arrays), and has the same solutions and objective values.", "quantifier": "all flow systems, shifts, lists of chosen steps and solutions", "why_tests_cant": "Tests solve a handful of fixed systems; the claim is about every system, every horizon and every feasible point of the generated MILP, including ones no solver run visits.", "anchors": ["flixOpt/flow_system.py:FlowSystem.get_time_data_from_indices", "flixOpt/core.py:TimeSeries.active_data", "flixOpt/calculation.py:Calculation", "flixOpt/components.py:StorageModel"]}
{"id": "C80", "title": "The description of the problem is true", "statement": "The sizes a calculation states (single equations, single inequations, variables, single variables, variables with several values) are those of the problem the solver gets. The listings of variables and constraints in its model information name every variable of the problem exactly once, every constraint exactly once and the objective once, each under the labels of its component, flow, bus or effect. The line printed for a constraint is its first row: its constant, its comparison and its summands, a sum being shown by its first summand.", "quantifier": "all flow systems, time indices, set iteration orders and constraints", "why_tests_cant": "Tests solve a handful of fixed systems; the claim is about every system, every horizon and every feasible point of the generated MILP, including ones no solver run visits.", "anchors": ["flixOpt/math_modeling.py:MathModel.infos", "flixOpt/math_modeling.py:MathModel.describe_size", "flixOpt/math_modeling.py:Equation.description", "flixOpt/structure.py:SystemModel.description_of_variables", "flixOpt/structure.py:ElementModel.description_of_constraints"]}
{"id": "C81", "title": "Labels are only names", "statement": "Giving other labels to the components, flows, buses and effects of a system changes nothing but names, as long as no two quantities get the same name: the system is still accepted, for every solution there is one of the renamed system with the same values under the new names and the same objective value, and the other way round.", "quantifier": "all flow systems, new labels, choices of steps, set iteration orders and solutions", "why_tests_cant": "Tests solve a handful of fixed systems; the claim is about every system, every horizon and every feasible point of the generated MILP, including ones no solver run visits.", "anchors": ["flixOpt/structure.py:Element.label_full", "flixOpt/elements.py:Flow.label_full", "flixOpt/structure.py:create_variable", "flixOpt/structure.py:create_equation", "flixOpt/calculation.py:FullCalculation.do_modeling"]}
{"id": "C82", "title": "Saved calculations survive other saves and crashes", "statement": "After a save that ran to its end, loading the calculation by its name and folder gives back exactly the results, data and infos that were saved, whatever else was or is saved under other names or in other folders, finished or not. If a save stops anywhere, by a crash or by an exception, loading fails or gives the complete results and data of one save of that name, never part of a file and never a mixture.", "quantifier": "all saved values, names, folders, contents of the disk, histories of saves and points at which each of them stops, within a number or line too", "why_tests_cant": "The claim is about every order of calls, including failing ones; a test replays one order.", "anchors": ["flixOpt/calculation.py:Calculation._define_path_names", "flixOpt/calculation.py:Calculation._save_solve_infos", "flixOpt/calculation.py:SegmentedCalculation._save_solve_infos", "flixOpt/results.py:CalculationResults"]}
{"id": "C83", "title": "Parts with nothing in common can be optimised separately", "statement": "If the components of a system fall into two groups that share no bus, no effect has a limit and no name is used twice, then the system can be solved exactly if both groups can be solved on their own. Every solution of the whole consists of one solution of each group and its totals are the sums of theirs, every two solutions of the groups make one of the whole, and the optimum of the whole is the sum of the optima. With a limit on an effect this is not so.", "quantifier": "all flow systems, all ways to divide their components, choices of steps, set iteration orders and solutions", "why_tests_cant": "Tests solve a handful of fixed systems; the claim is about every system, every horizon and every feasible point of the generated MILP, including ones no solver run visits.", "anchors": ["flixOpt/calculation.py:FullCalculation.do_modeling", "flixOpt/effects.py:EffectCollectionModel", "flixOpt/elements.py:BusModel", "flixOpt/flow_system.py:FlowSystem"]}
{"id": "C84", "title": "Presolve figures are those written in the solver's log", "statement": "Reading a gurobi log never fails: rows, columns, nonzeros, continuous, integer and binary figures are exactly the numbers of the first place where the two presolve lines stand, whatever stands before or after, and none is given if they stand nowhere. From a cbc log the size figures and the integer figures are those of the first line about each, the continuous figure is columns minus integers, and reading fails exactly when a line about integers stands there and none about the size. For glpk nothing is given; every other solver name is refused.", "quantifier": "all texts a log file may hold, all numbers in it, all solver names", "why_tests_cant": "The input space (lengths, labels, nesting, values) is unbounded; a test samples a few points.", "anchors": ["flixOpt/math_modeling.py:SolverLog.parse_infos", "flixOpt/math_modeling.py:SolverLog.infos", "flixOpt/math_modeling.py:GurobiSolver.solve"]}
{"id": "C85", "title": "The units in which effects are counted are free", "statement": "If every amount of an effect in the data of a flow system is given in another unit (prices of flows, of starts, of running hours, of investments and their segments, limits, shares between effects, and bus penalties in the unit of the objective), then every solution of the one problem corresponds to a solution of the other with the same rates, states, sizes, stored energies and excesses, with effect totals and objective converted; the best plans correspond, and a system accepted for its data and labels is accepted in every unit.", "quantifier": "all flow systems with sensible data, all positive unit factors per effect, all selections of time steps, all solutions", "why_tests_cant": "Tests solve a handful of fixed systems; the claim is about every system, every horizon and every feasible point of the generated MILP, including ones no solver run visits.", "anchors": ["flixOpt/effects.py:Effect", "flixOpt/effects.py:EffectCollectionModel", "flixOpt/features.py:InvestmentModel", "flixOpt/features.py:OnOffModel", "flixOpt/elements.py:FlowModel", "flixOpt/elements.py:BusModel"]}
{"id": "C86", "title": "Solutions with the same decisions can be mixed", "statement": "If two solutions of an optimisation problem switch the same flows and components on at the same times, make the same optional investments and use the same segments, then for every weight between 0 and 1 the weighted mean of the two schedules is again a solution of the problem (after the helper quantities are filled in) and its objective is the same weighted mean of the two objectives. In a system without on/off operation, exclusive flows, optional or segmented investments and segmented conversions this holds for any two solutions. So every step from a solution towards a better one with the same decisions is a solution and an improvement, and mixtures of optimal solutions with the same decisions are optimal.", "quantifier": "every system (of every kind of component) with sensible data, every selection of time steps, every two solutions, every weight", "why_tests_cant": "Tests solve a handful of fixed systems; the claim is about every system, every horizon and every feasible point of the generated MILP, including ones no solver run visits.", "anchors": ["flixOpt/elements.py:FlowModel", "flixOpt/features.py:OnOffModel", "flixOpt/features.py:InvestmentModel", "flixOpt/components.py:StorageModel", "flixOpt/effects.py:EffectModel", "flixOpt/structure.py:SystemModel"]}
{"id": "C87", "title": "What the documentation of a flow system shows", "statement": "Saving an element or a flow system as a document (to_json, or printing it) keeps every plain value as it is; an array of at most 50 numbers is written out completely with every number rounded to the nearest multiple of 0.01 (numbers with two decimals and integers are exact, so two arrays that look the same differ by 0.01 at most); a longer array is replaced by its true minimum, maximum, mean, median, standard deviation, length and centre of mass, where the shown mean and median lie between the shown minimum and maximum and the centre of values that are not negative lies between 0 and 1. Every component, bus and effect appears exactly once under its label, in alphabetical order regardless of case, flows with their direction inside their component. The document does not depend on the order in which the elements were added, unless two labels differ only in case. It can always be written as JSON, unless the data holds an array of truth values.", "quantifier": "every convertible value of any depth, every threshold and number of decimals, every flow system with distinct labels, every order of adding elements", "why_tests_cant": "The input space (lengths, labels, nesting, values) is unbounded; a test samples a few points.", "anchors": ["flixOpt/structure.py:get_compact_representation", "flixOpt/structure.py:Interface.to_json", "flixOpt/flow_system.py:FlowSystem.infos", "flixOpt/flow_system.py:FlowSystem.to_json", "flixOpt/elements.py:Component.infos", "flixOpt/elements.py:Flow.infos"]}
{"id": "C88", "title": "A segmented calculation is never better than the full one", "statement": "Whatever a segmented calculation over the whole horizon puts together from its segments could also have been planned by an ordinary calculation: there is a solution of the ordinary problem with the same rates, states, starts, stored energies, excesses and effects per step, whose objective is the sum of the effect over all steps plus the penalties of the buses. So the optimum of the ordinary calculation never costs more than the segmented result.", "quantifier": "all flow systems, segment lengths, overlaps and solver answers for the segments; all solutions of the ordinary problem", "why_tests_cant": "The claim is about every order of calls, including failing ones; a test replays one order.", "anchors": ["flixOpt/calculation.py:SegmentedCalculation", "flixOpt/calculation.py:FullCalculation", "flixOpt/calculation.py:SegmentedCalculation.results", "flixOpt/effects.py:EffectCollectionModel"]}
{"id": "C89", "title": "A plot of an element's operation shows every series of it once, and a bus plot balances", "statement": "The plot of the operation of a component, bus or flow of a solved calculation shows each of its flows (and the surplus and deficit of a bus) that has a value over 1e-5, once, under its name, over the time stamps of the calculation including the end of the last step, with the reported values (in plots of areas values next to zero as zero) and the sign asked for, and nothing else. In the plot of a bus what is drawn above and below zero reaches equally far in every step, up to the values too small to be drawn. The plot of a storage also shows its charge state at every time stamp. The figure is of the form asked for (bars, lines, areas, heat map), and the series take the colours asked for, bars and lines in their order. Labels that exist nowhere, unknown engines and modes and a wrong number of colours are refused.", "quantifier": "for every flow system, solution, element, engine, mode and sign convention", "why_tests_cant": "Tests solve a handful of fixed systems; the claim is about every system, every horizon and every feasible point of the generated MILP, including ones no solver run visits.", "anchors": ["flixOpt/results.py: CalculationResults.plot_operation, CalculationResults.plot_storage, CalculationResults.to_dataframe", "flixOpt/plotting.py: with_plotly, with_matplotlib"]}
{"id": "C90", "title": "A change of prices moves the optimum the way it should", "statement": "If the effects per flow hour of flows are changed in terms of the effect that is minimised, every schedule that was possible stays possible and the other way round, and its cost changes by exactly the change of each price times the energy of that flow. Hence the optimum changes by at most what the old best plan costs more and by at least what the new best plan costs more; measured by the change of prices the new best plan uses no more than the old one; if flows become dearer by a common amount, the best plan uses no more of them; and higher prices never make the optimum cheaper. (Wrong in general if costs have to reach a minimum.)", "quantifier": "every flow system of any size with sensible data, every change of prices over time and flows, every selection of time steps, every pair of optimal solutions", "why_tests_cant": "Tests solve a handful of fixed systems; the claim is about every system, every horizon and every feasible point of the generated MILP, including ones no solver run visits.", "anchors": ["flixOpt/elements.py:FlowModel", "flixOpt/effects.py:EffectModel", "flixOpt/effects.py:EffectCollectionModel", "flixOpt/features.py:ShareAllocationModel", "flixOpt/calculation.py:FullCalculation"]}
{"id": "C91", "title": "A segmented calculation finds the optimum when nothing connects the steps", "statement": "If a system has no storages, no on/off behaviour, no investments and no limits on totals, and every segment is solved to optimality, then the combined result of a segmented calculation, with or without overlap, is the schedule of an optimal solution of the ordinary calculation over the whole horizon, and it costs exactly what every optimal solution costs: nothing is lost by calculating in segments.", "quantifier": "every such flow system of any size with sensible data, every length of segments and overlap within the horizon, every optimal solution the solver may return for each segment and for the whole", "why_tests_cant": "Tests solve a handful of fixed systems; the claim is about every system, every horizon and every feasible point of the generated MILP, including ones no solver run visits.", "anchors": ["flixOpt/calculation.py:SegmentedCalculation", "flixOpt/calculation.py:SegmentedCalculation.do_modeling_and_solve", "flixOpt/calculation.py:SegmentedCalculation.results", "flixOpt/calculation.py:FullCalculation"]}
{"id": "C92", "title": "Every solve gets its own settings and is reported as it was", "statement": "However often solver objects and calculations are used in any order, each solve asks the solver exactly once, for the program of this calculation, with the accuracy, time limit, number of threads and console setting the solver object was created with, under the names this solver understands, and with the log in the file of this calculation. A calculation that was solved reports the objective, bound, message and log of its own solve, and who gets a solution that is not the optimum is warned.", "quantifier": "every sequence of modelling and solving calls on any number of calculations and solver objects of all five classes, every answer or failure of the solver", "why_tests_cant": "The claim is about every order of calls, including failing ones; a test replays one order.", "anchors": ["flixOpt/math_modeling.py:GurobiSolver.solve", "flixOpt/math_modeling.py:HighsSolver.solve", "flixOpt/math_modeling.py:CplexSolver.solve", "flixOpt/math_modeling.py:CbcSolver.solve", "flixOpt/math_modeling.py:GlpkSolver.solve", "flixOpt/math_modeling.py:MathModel.solve", "flixOpt/math_modeling.py:MathModel.infos", "flixOpt/calculation.py:FullCalculation.solve", "flixOpt/structure.py:SystemModel.main_results"]}
{"id": "C93", "title": "A system that can be operated has a best way to be operated", "statement": "If the effects are passed on in some order (each only to later ones) and no bus pays for imbalance, then the objective of all solutions is bounded below: no solver can find the problem of a flow system unbounded. All rates, sizes and effect totals stay within limits that depend on the data only. If there is any solution, then there is an optimal one, and its cost is the smallest of all plans that obey the rules of the system. Both conditions are needed: effects passed on in a circle of three, or a negative penalty, make a harmless system unbounded.", "quantifier": "every flow system that can be built, with any number of components, effects, time steps, investments with segments and on-off decisions; every solution", "why_tests_cant": "Tests solve a handful of fixed systems; the claim is about every system, every horizon and every feasible point of the generated MILP, including ones no solver run visits.", "anchors": ["flixOpt/structure.py:SystemModel", "flixOpt/effects.py:EffectCollectionModel.do_modeling", "flixOpt/effects.py:Effect._plausibility_checks", "flixOpt/features.py:InvestmentModel", "flixOpt/elements.py:FlowModel", "flixOpt/elements.py:BusModel.do_modeling"]}
{"id": "C94", "title": "The cost of the best plan belongs to the system and moves the right way", "statement": "For a system whose effects are passed on in some order and whose buses do not pay for imbalance, there is a best cost exactly if there is a solution, and it is one number, whichever optimal solution is found. If limits are widened (as in C72), or a component that may stand idle is added (as in C77), a best cost still exists and is no higher. What a segmented calculation puts together (as in C88) costs at least the best cost of the ordinary calculation, which exists. If prices of flow hours change in terms of the minimised effect, on which no limit depends, a best cost exists before exactly if it does after, it does not fall when prices rise and rates cannot be negative, and at prices in between it is at least the mean of the best costs at both ends.", "quantifier": "every flow system that can be built and every change of it of these kinds, with any number of components and time steps", "why_tests_cant": "Tests solve a handful of fixed systems; the claim is about every system, every horizon and every feasible point of the generated MILP, including ones no solver run visits.", "anchors": ["flixOpt/structure.py:SystemModel", "flixOpt/effects.py:EffectCollectionModel.do_modeling", "flixOpt/elements.py:FlowModel.do_modeling", "flixOpt/calculation.py:SegmentedCalculation"]}
{"id": "C95", "title": "The drawing of the network shows the system", "statement": "visualize_network draws one box for every component, one circle for every bus that is used and one arrow with its label for every flow, in the direction in which energy goes, and nothing else. If a path is given, the drawing is saved there, before it is opened in the browser; with False for the path it is not saved. It is opened only if this is asked for. If the file cannot be written, the call fails and nothing is opened. The network is returned unless pyvis is not installed; then nothing happens. Drawing fails for no other reason.", "quantifier": "every flow system that can be built, every path and every combination of options, and whether or not pyvis is installed and the file can be written", "why_tests_cant": "Tests solve a handful of fixed systems; the claim is about every system, every horizon and every feasible point of the generated MILP, including ones no solver run visits.", "anchors": ["flixOpt/plotting.py:visualize_network", "flixOpt/flow_system.py:FlowSystem.visualize_network", "flixOpt/flow_system.py:FlowSystem.network_infos"]}
{"id": "C96", "title": "Each further unit of demand costs at least as much as the one before", "statement": "Take one system with two sets of limits (profiles and limits of rates where sizes are given, limits of the effects) and a third set that is nowhere stricter than their weighted mean. Two solutions at both ends that take the same on/off and investment decisions give a solution in between whose rates and other quantities are the weighted means, at the weighted mean of the costs. If nothing has to be decided, a system that can be operated at both ends can be operated in between, the best cost there is at most the mean of the best costs, and half way the second half of the way costs at least as much as the first: the marginal cost of a demand, and of saving an emission, never falls.", "quantifier": "every flow system, every pair of sets of limits, every weight between 0 and 1, every pair of solutions", "why_tests_cant": "Tests solve a handful of fixed systems; the claim is about every system, every horizon and every feasible point of the generated MILP, including ones no solver run visits.", "anchors": ["flixOpt/elements.py:FlowModel", "flixOpt/effects.py:EffectModel", "flixOpt/features.py:ShareAllocationModel", "flixOpt/calculation.py:FullCalculation.solve"]}
{"id": "C97", "title": "Log messages are written once, from the level on that was asked for last", "statement": "After any sequence of loading configurations and changing the logging level, in which calls may fail, a message is written exactly once to the console and exactly once to the current log file if its level is at least the one that was asked for last, and nowhere otherwise. The five names of levels are recognised whether in capitals or not; any other name makes the call fail and changes nothing. If the log file cannot be opened, the call fails, and messages go to the console only. In the file every line of a message is one line that begins with the time and the level; on the console the same lines appear in the colour of their level, for messages whose lines end with line feeds only.", "quantifier": "every history of calls, every set of files that can or cannot be opened, every message", "why_tests_cant": "The claim is about every order of calls, including failing ones; a test replays one order.", "anchors": ["flixOpt/config.py:setup_logging", "flixOpt/config.py:change_logging_level", "flixOpt/config.py:get_logging_level_by_name", "flixOpt/config.py:MultilineFormater", "flixOpt/config.py:ColoredMultilineFormater", "flixOpt/config.py:_get_logging_handler"]}
{"id": "C98", "title": "The unit of energy and power is free", "statement": "Giving all sizes, capacities, rates, stored energies and limits on energy in another unit (kW instead of MW), and all prices per unit of energy or power accordingly, changes nothing: every plan of the one system is, converted, a plan of the other at the same cost, the best cost is the same and the best plans are the same. For this the two constants of the configuration, the smallest rate that counts as running (EPSILON) and the size of what has no size (BIG), have to be given in the new unit as well; with the constants left as they are, a system that has a plan in one unit can have none in another.", "quantifier": "every flow system with sensible data, every positive conversion factor, every plan", "why_tests_cant": "Tests solve a handful of fixed systems; the claim is about every system, every horizon and every feasible point of the generated MILP, including ones no solver run visits.", "anchors": ["flixOpt/elements.py:Flow", "flixOpt/elements.py:FlowModel", "flixOpt/features.py:OnOffModel", "flixOpt/features.py:InvestmentModel", "flixOpt/components.py:StorageModel", "flixOpt/components.py:Transmission", "flixOpt/config.py:CONFIG"]}
{"id": "C99", "title": "A finer time grid never makes the best result worse", "statement": "Dividing every step of a system into the same number of equal steps, with all data held over the parts, gives a system in which every plan of the first can still be carried out: with the same rates and sizes, the same charges at the old step borders, the same effects in total and the same objective. So the best result on the finer grid is never worse. This holds as long as there are no start-up effects, and stores have no losses over time, limits that are single numbers and no demand to end as they began; for a store with losses, or one that is to end as it began, the finer system can be unsolvable although the coarse one is not.", "quantifier": "every flow system with sensible data, every number of parts, every plan", "why_tests_cant": "Tests solve a handful of fixed systems; the claim is about every system, every horizon and every feasible point of the generated MILP, including ones no solver run visits.", "anchors": ["flixOpt/flow_system.py:FlowSystem", "flixOpt/elements.py:FlowModel", "flixOpt/components.py:StorageModel", "flixOpt/features.py:OnOffModel", "flixOpt/effects.py:EffectModel"]}
{"id": "C100", "title": "The report on a clustering names every step once and can be asked for again; its pictures show the data", "statement": "The report of an aggregation has an entry for every cluster and says of every time step exactly once, and correctly, to which cluster it belongs; there is a report exactly if every period begins before the end of the data and belongs to a known cluster. Asked for a second time, the report is the same. The comparison of original and aggregated data has a dashed line with the original and a full line with the aggregated values of each column, in the same colour for columns at the same place. A heat map draws every cell of the table in the row and column of its labels, and its range of colours runs from the least to the greatest value.", "quantifier": "every clustering (number of steps, length of periods, assignment of periods), all sets of extreme periods, all tables, with or without empty cells", "why_tests_cant": "Tests solve a handful of fixed systems; the claim is about every system, every horizon and every feasible point of the generated MILP, including ones no solver run visits.", "anchors": ["flixOpt/aggregation.py:Aggregation.describe_clusters", "flixOpt/aggregation.py:Aggregation.use_extreme_periods", "flixOpt/aggregation.py:Aggregation.plot", "flixOpt/aggregation.py:Aggregation.get_cluster_indices", "flixOpt/plotting.py:heat_map_matplotlib", "flixOpt/plotting.py:heat_map_plotly"]}
{"id": "C101", "title": "Where nothing is switched, a finer time grid makes no difference", "statement": "If every step of a system is divided into the same number of equal steps with the same data, the least cost is the same on both grids, and one of the two systems has a plan exactly if the other has. Every plan on the finer grid can be evened out: with the mean rates over the old steps, the same sizes, the same charges at the old step borders, the same effects in total and the same objective. This holds as long as nothing is switched on and off, in addition to the conditions on stores of the claim on finer grids. A plant that is either off or at full load can need the finer grid.", "quantifier": "every flow system with sensible data, every number of parts, every plan on the finer grid", "why_tests_cant": "Tests solve a handful of fixed systems; the claim is about every system, every horizon and every feasible point of the generated MILP, including ones no solver run visits.", "anchors": ["flixOpt/flow_system.py:FlowSystem", "flixOpt/elements.py:FlowModel", "flixOpt/elements.py:BusModel", "flixOpt/components.py:StorageModel", "flixOpt/components.py:TransmissionModel", "flixOpt/components.py:LinearConverterModel", "flixOpt/effects.py:EffectModel"]}
{"id": "C102", "title": "The two directions of a transmission belong together", "statement": "A transmission whose second direction does not begin where the first one ends and end where the first one begins, or that has investment parameters on another flow than the first input, is refused. So a transmission takes from one side and delivers at the other, less losses, in both directions; the second direction has the size of the first one, and costs nothing extra.", "quantifier": "every flow system with a transmission in two directions, every plan, every step", "why_tests_cant": "Tests solve a handful of fixed systems; the claim is about every system, every horizon and every feasible point of the generated MILP, including ones no solver run visits.", "anchors": ["flixOpt/components.py:Transmission.__init__", "flixOpt/components.py:Transmission._plausibility_checks", "flixOpt/components.py:TransmissionModel.do_modeling"]}
{"id": "C103", "title": "A full name stands for one flow", "statement": "In an accepted flow system no two flows have the same full name (component label, two underscores, flow label), so every entry of the results belongs to one flow. A label that begins or ends with an underscore or has two in a row cannot be used; other labels of component and flow can be read off the full name, and distinct labels give distinct full names.", "quantifier": "every flow system that is accepted, all labels", "why_tests_cant": "Tests solve a handful of fixed systems; the claim is about every system, every horizon and every feasible point of the generated MILP, including ones no solver run visits.", "anchors": ["flixOpt/structure.py:Element.__init__", "flixOpt/utils.py:label_is_valid", "flixOpt/elements.py:Flow.label_full", "flixOpt/structure.py:SystemModel.all_variables"]}
{"id": "C104", "title": "What an element says about its own part of the problem", "statement": "For every element of an accepted system, the model of the element tells the number of its equations, inequations and variables, and of their single rows and values, its parts included; the flat listings of its variables and constraints show all of them.", "quantifier": "every accepted flow system, every element of it and every part of an element", "why_tests_cant": "Tests solve a handful of fixed systems; the claim is about every system, every horizon and every feasible point of the generated MILP, including ones no solver run visits.", "anchors": ["flixOpt/structure.py:ElementModel.overview_of_model_size", "flixOpt/structure.py:ElementModel.all_equations", "flixOpt/structure.py:ElementModel.all_inequations", "flixOpt/structure.py:ElementModel.description_of_constraints"]}
{"id": "C105", "title": "What is shown after solving", "statement": "When a calculation is solved before another one on the same flow system is modelled, solving shows its results: operation, invest and total of every effect (effects shown under distinct names), penalty and objective, one list with every investment once under the name of its element with its size, the largest first, a warning for exactly the buses whose excess is above 0.001, and a warning if the penalty is above 10.", "quantifier": "every flow system, every history of calls before and between modelling and solving, all values found by the solver", "why_tests_cant": "Tests solve a handful of fixed systems; the claim is about every system, every horizon and every feasible point of the generated MILP, including ones no solver run visits.", "anchors": ["flixOpt/structure.py:SystemModel.solve", "flixOpt/structure.py:SystemModel.main_results", "flixOpt/utils.py:apply_formating"]}
{"id": "C106", "title": "Which flows can be made", "statement": "A flow can be made exactly if its relative minimum is nowhere above its relative maximum, in whichever documented way these are given; a fixed profile without a size leads to a warning only.", "quantifier": "every flow, every number of steps, all limits, sizes and profiles", "why_tests_cant": "Tests solve a handful of fixed systems; the claim is about every system, every horizon and every feasible point of the generated MILP, including ones no solver run visits.", "anchors": ["flixOpt/elements.py:Flow.__init__", "flixOpt/elements.py:Flow._plausibility_checks", "flixOpt/elements.py:Flow.infos", "flixOpt/elements.py:Flow.is_input_in_comp"]}
