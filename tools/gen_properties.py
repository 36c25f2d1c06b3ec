#!/usr/bin/env python3
"""Writes properties.jsonl (one JSON object per line)."""
import json, os
P = []
def p(title, statement, quantifier, why, anchors):
    P.append(dict(id=f"C{len(P)+1:02d}", title=title, statement=statement, quantifier=quantifier,
                  why_tests_cant=why, anchors=anchors))

W_SYS = "Tests solve a handful of fixed systems; the claim is about every system, every horizon and every feasible point of the generated MILP, including ones no solver run visits."
W_HIST = "The claim is about every order of calls, including failing ones; a test replays one order."
W_IN = "The input space (lengths, labels, nesting, values) is unbounded; a test samples a few points."

p("Bus balance", "In every solution accepted by the generated model, in a system whose buses have different labels, at every bus and every time step, the flow rates delivered into the bus plus excess_input equal the flow rates taken from it plus excess_output; excess terms are non-negative and are absent when the bus has no excess penalty.",
  "all flow systems whose modelling succeeds, all time index selections, all feasible points, all buses, all time steps", W_SYS,
  ["flixOpt/elements.py:BusModel.do_modeling", "flixOpt/elements.py:Component.register_flows_in_bus", "flixOpt/flow_system.py:FlowSystem.buses"])
p("Storage energy balance", "For every storage and time step, charge_state(t+1) = charge_state(t)*(1 - loss(t)*dt(t)) + charging(t)*eta_charge(t)*dt(t) - discharging(t)/eta_discharge(t)*dt(t), hence the stored energy at any time is the compounded initial energy plus compounded net inputs; netto_discharge = discharging - charging.",
  "all systems, storages, horizons, time step lengths, feasible points", W_SYS, ["flixOpt/components.py:StorageModel.do_modeling"])
p("Storage level limits", "Every charge state, including the one after the last time step, stays within relative_minimum*capacity and relative_maximum*capacity, where capacity is the given number or, with an investment, the chosen size.",
  "all systems, storages, n+1 charge states, feasible points", W_SYS, ["flixOpt/components.py:StorageModel.absolute_charge_state_bounds", "flixOpt/features.py:InvestmentModel._create_bounds_for_defining_variable"])
p("Initial and final charge state", "A numeric initial_charge_state fixes the first charge state; minimal/maximal_final_charge_state bound the charge state after the last time step; with 'lastValueOfSim' the storage ends at the level at which it started.",
  "all storages, all settings of the three arguments, all feasible points", W_SYS, ["flixOpt/components.py:StorageModel._model_initial_and_final_charge_state", "flixOpt/components.py:Storage"])
p("Linear conversion", "For every conversion equation of a LinearConverter and every time step, the factor-weighted sum of its input flow rates equals the factor-weighted sum of its output flow rates, whatever order Python iterates its sets in.",
  "all converters, factor dictionaries, time steps, set iteration orders, feasible points", W_SYS, ["flixOpt/components.py:LinearConverterModel.do_modeling"])
p("Named converters", "Boiler, Power2Heat, HeatPump, CoolingTower, CHP and HeatPumpWithSource enforce their documented efficiency relations; a HeatPumpWithSource conserves energy (heat = electricity + source heat).",
  "all parameter values for which construction succeeds, time steps, feasible points", W_SYS, ["flixOpt/linear_converters.py"])
p("Piecewise linear operation", "With segmented factors, at every time step either all flows of the converter lie on one common segment with one common interpolation weight, or (only if the converter may be off) all of them are zero.",
  "all segment tables, time steps, feasible points", W_SYS, ["flixOpt/features.py:MultipleSegmentsModel", "flixOpt/features.py:SegmentModel", "flixOpt/components.py:LinearConverterModel.do_modeling"])
p("Transmission losses", "out(t) = in(t)*(1 - relative_losses(t)) - absolute_losses(t)*on(t) in each direction, both directions have the same invested size, and with the default setting they are never used in the same time step.",
  "all transmissions, loss series, time steps, feasible points", W_SYS, ["flixOpt/components.py:TransmissionModel"])
p("Flow rate limits", "Without on/off behaviour a flow rate stays within relative_minimum(t)*size and relative_maximum(t)*size at every step, for a given size, a fixed invested size and a variable invested size alike.",
  "all flows, bounds series, time steps, feasible points", W_SYS, ["flixOpt/elements.py:FlowModel.do_modeling", "flixOpt/elements.py:FlowModel.absolute_flow_rate_bounds"])
p("Fixed profiles", "A flow with fixed_relative_profile has flow_rate(t) = profile(t)*size at every step (when it has no on/off behaviour), where size is the given or the invested size.",
  "all flows, profiles, time steps, feasible points", W_SYS, ["flixOpt/elements.py:FlowModel", "flixOpt/features.py:InvestmentModel._create_bounds_for_defining_variable"])
p("Investment sizing", "A mandatory fixed investment has exactly its size, a mandatory variable one lies in [minimum_size, maximum_size], an optional fixed one is 0 or its size, an optional variable one is 0 or within [max(epsilon, minimum_size), maximum_size], according to isInvested.",
  "all InvestParameters, feasible points", W_SYS, ["flixOpt/features.py:InvestmentModel", "flixOpt/interface.py:InvestParameters"])
p("Optional investments can be declined", "An optional investment is never forced by its own parameters: not investing with zero flow is compatible with the constraints created for the flow.",
  "all optional InvestParameters and flow parameters", W_SYS, ["flixOpt/elements.py:FlowModel.absolute_flow_rate_bounds", "flixOpt/features.py:InvestmentModel"])
p("Flow on/off coupling", "For a flow with on/off behaviour, on(t)=0 forces flow_rate(t)=0 and on(t)=1 forces flow_rate(t) to lie between max(epsilon, lower bound) and the upper bound; with an investment the limits follow the invested size.",
  "all flows with OnOffParameters (given or induced), time steps, feasible points", W_SYS, ["flixOpt/features.py:OnOffModel._add_on_constraints", "flixOpt/features.py:InvestmentModel._create_bounds_for_defining_variable"])
p("Component on/off coupling", "A component with OnOffParameters is off exactly when all of its flows are zero; every flow of it obtains an on variable.",
  "all components with any number of flows, time steps, feasible points", W_SYS, ["flixOpt/elements.py:ComponentModel.do_modeling", "flixOpt/features.py:OnOffModel._add_on_constraints"])
p("Switch-on accounting", "switchOn(t)=1 exactly when the state goes from off to on between t-1 and t (t=0 compares with the state before the horizon), switchOff likewise, and nrSwitchOn counts the starts and respects switch_on_total_max.",
  "all on/off patterns, horizons, previous states, feasible points", W_SYS, ["flixOpt/features.py:OnOffModel._add_switch_constraints"])
p("Consecutive on/off hours", "The consecutive-hours variable equals the hours since the state was entered (including hours before the horizon) and 0 otherwise; runs never exceed the maximum and every run that ends inside the horizon is at least the minimum long; conversely every pattern obeying these rules is admitted by the constraints.",
  "all binary patterns, step lengths, min/max series, previous durations, horizon lengths", "The constraint system is a big-M encoding; its equivalence to the run-length rule quantifies over exponentially many patterns and all step lengths.",
  ["flixOpt/features.py:OnOffModel._get_duration_in_hours"])
p("Totals and load factors", "totalOnHours = sum of on(t)*dt(t) within its limits, sumFlowHours = sum of flow_rate(t)*dt(t) within its limits, and load_factor_min*size*T <= sumFlowHours <= load_factor_max*size*T with T the length of the horizon.",
  "all flows/components, horizons, feasible points", W_SYS, ["flixOpt/elements.py:FlowModel._create_bounds_for_load_factor", "flixOpt/features.py:OnOffModel.do_modeling"])
p("Mutually exclusive flows", "Of the flows listed as not simultaneously usable (storage charging/discharging, source-and-sink, transmission directions, or user list) at most one is non-zero at any time step.",
  "all components, lists of two or more flows, time steps, feasible points", W_SYS, ["flixOpt/features.py:PreventSimultaneousUsageModel", "flixOpt/elements.py:ComponentModel.do_modeling"])
p("Operational effect accounting", "For every effect and time step, the operation total equals the sum over all flows of value(t)*flow_rate(t)*dt(t), plus switch-on and running-hour effects of flows and components, plus the configured fractions of other effects' operation totals; the operation sum is the sum over time.",
  "all systems, effects, effect dictionaries (with and without the standard effect), time steps, feasible points", W_SYS, ["flixOpt/effects.py:EffectCollectionModel", "flixOpt/features.py:ShareAllocationModel", "flixOpt/features.py:SingleShareModel"])
p("Investment effect accounting", "For every effect the invest total equals fixed effects (if invested) + specific effects*size + divest effects (if optional and not invested) + segmented effects over all investments, plus configured fractions of other effects' invest totals.",
  "all systems, investments, effects, feasible points", W_SYS, ["flixOpt/features.py:InvestmentModel._create_shares", "flixOpt/effects.py:EffectCollectionModel"])
p("Objective", "The minimised objective equals the operation total plus the invest total of the objective effect plus the penalty total, and the penalty total equals the sum over all buses and steps of penalty(t)*dt(t)*(excess_input+excess_output).",
  "all systems, feasible points", W_SYS, ["flixOpt/effects.py:EffectCollectionModel.do_modeling", "flixOpt/math_modeling.py:PyomoModel.translate_objective"])
p("Effect limits", "Total, operation, invest and per-hour limits of an effect hold in every accepted solution; the per-hour limits scale with the step length.",
  "all effects, limits, steps, feasible points", W_SYS, ["flixOpt/features.py:ShareAllocationModel.do_modeling", "flixOpt/effects.py:EffectModel"])
p("Equation assembly", "For any sequence of add_summand/add_constant calls that succeeds, row i of the equation handed to the solver reads: sum of factor(i)*variable(index(i)) over the summands (scalars broadcast) equals / is at most the sum of the constants at i; the number of rows is the common length of all non-scalar parts; a call with an incompatible length is rejected.",
  "all call sequences, all lengths, all index selections", W_HIST, ["flixOpt/math_modeling.py:_Constraint", "flixOpt/math_modeling.py:Summand", "flixOpt/math_modeling.py:PyomoModel"])
p("Rejected additions leave an equation unchanged", "When add_summand or add_constant raises, the equation handed to the solver afterwards is the same as if the call had not been made.",
  "all call sequences with failing calls", W_HIST, ["flixOpt/math_modeling.py:_Constraint.add_summand", "flixOpt/math_modeling.py:_Constraint.add_constant"])
p("Summing over chosen indices", "add_summand(..., indices, as_sum=True) contributes the sum of factor*variable over exactly the given indices.",
  "all index lists, factors, variables", W_IN, ["flixOpt/math_modeling.py:SumOfSummand", "flixOpt/math_modeling.py:PyomoModel._summand_math_expression"])
p("Variable bounds reach the solver", "Each entry of a variable is constrained by its own lower and upper bound, is binary if declared so, or is fixed to its fixed value, which must respect the declared bounds at construction.",
  "all variables, lengths, scalar or vector bounds", W_IN, ["flixOpt/math_modeling.py:Variable", "flixOpt/math_modeling.py:PyomoModel.translate_variable"])
p("Nothing is lost or duplicated on the way to the solver", "The solver receives exactly the variables and constraints of all models in the model tree, each once; if two of them share a label the calculation fails instead of dropping one.",
  "all model trees (any depth and branching), all labels", W_IN, ["flixOpt/structure.py:SystemModel.all_variables", "flixOpt/structure.py:SystemModel.sub_models", "flixOpt/structure.py:ElementModel.all_sub_models", "flixOpt/structure.py:ElementModel.all_inequations"])
p("Results report the solver's values", "After solving, each variable's result is the value the solver returned for it (binaries as 0/1) under its label in the nested results.",
  "all solver answers within integrality tolerance, all model trees", W_IN, ["flixOpt/math_modeling.py:PyomoModel.solve", "flixOpt/structure.py:ElementModel.results"])
p("Time series selection", "The data a calculation sees for a parameter is the user's data at the selected time steps, after any history of earlier calculations, index selections and aggregations.",
  "all histories of transform/activate/aggregate operations, all data", W_HIST, ["flixOpt/core.py:TimeSeries", "flixOpt/structure.py:_create_time_series"])
p("Effect registration", "After any sequence of add_effects calls, failing ones included, labels are unique and at most one standard and at most one objective effect exist; a failing call changes nothing.",
  "all histories of add_effects", W_HIST, ["flixOpt/effects.py:EffectCollection.add_effect"])
p("Component registration", "After any sequence of add_components calls component labels are unique and each flow of each registered component is registered once at its bus, on the side matching its direction; no element is silently shadowed by another with the same label.",
  "all histories of add_components/add_effects", W_HIST, ["flixOpt/flow_system.py:FlowSystem.add_components", "flixOpt/flow_system.py:FlowSystem._check_if_element_is_unique", "flixOpt/flow_system.py:FlowSystem.all_elements"])
p("Time step lengths", "The step lengths used by a calculation are the differences of consecutive selected time stamps, the last one reaching to the next stamp of the system; they are non-negative for increasing selections and add up to the time between start and end; the last step of the system lasts last_time_step_hours hours.",
  "all time axes, all index selections", W_IN, ["flixOpt/flow_system.py:FlowSystem.__init__", "flixOpt/flow_system.py:FlowSystem.get_time_data_from_indices", "flixOpt/utils.py:check_time_series"])
p("Segmentation covers the horizon", "The segments of a SegmentedCalculation cover every requested time step, and after dropping overlaps every step is covered exactly once, in order.",
  "all horizon lengths, segment lengths, overlaps, time_indices", W_IN, ["flixOpt/calculation.py:SegmentedCalculation"])
p("Segment hand-over", "Each segment starts from the state (previous flow rates, storage levels) its predecessor reached at exactly that time, so that the combined storage trajectory satisfies the energy balance across segment borders.",
  "all horizon lengths, segment lengths, overlaps, solver answers", W_HIST, ["flixOpt/calculation.py:SegmentedCalculation._transfer_start_values", "flixOpt/calculation.py:SegmentedCalculation.do_modeling_and_solve"])
p("Segmented runs restore the system", "After a SegmentedCalculation the flow system has the initial values it had before, also when a segment fails.",
  "all failure points", "Requires every crash point of the loop.", ["flixOpt/calculation.py:SegmentedCalculation._reset_start_values"])
p("Combined results", "In the combined result of a segmented calculation the value of a time series at step t is the one computed by the segment responsible for t; no series is dropped and lengths equal the horizon (plus one for charge states).",
  "all numbers of segments, lengths, nested result dictionaries", W_IN, ["flixOpt/calculation.py:_combine_nested_arrays"])
p("Aggregation index pairs", "The index pairs equated by an aggregated calculation connect only steps of different periods assigned to the same cluster at the same offset, and connect all such steps except the first step of each period.",
  "all cluster orders, period lengths, incomplete last periods", W_IN, ["flixOpt/aggregation.py:Aggregation.get_cluster_indices", "flixOpt/aggregation.py:Aggregation.get_equation_indices"])
p("Aggregated variables agree", "In every accepted solution of an aggregated calculation, equated variables agree at paired steps up to the corrections of binaries, whose number per variable is at most the configured percentage.",
  "all aggregations, feasible points", W_SYS, ["flixOpt/aggregation.py:AggregationModel"])
p("Aggregation weights", "The weights of the members of an aggregation group add up to one, explicit weights are used as given and all other series get weight one.",
  "all collections of time series", W_IN, ["flixOpt/aggregation.py:TimeSeriesCollection"])
p("Saved data is JSON-compatible", "Converting any nested structure of supported values with use_numpy=False yields only JSON types, with use_numpy=True besides arrays of numbers, and does not change numbers; unsupported values raise.",
  "all nested structures of any depth", W_IN, ["flixOpt/structure.py:copy_and_convert_datatypes"])
p("Reloaded results equal the saved ones", "Saving results and loading them again yields the same nested structure with the same numeric arrays.",
  "all nested result structures", W_IN, ["flixOpt/structure.py:copy_and_convert_datatypes", "flixOpt/utils.py:convert_numeric_lists_to_arrays", "flixOpt/results.py:CalculationResults"])
p("Flattened results keep every entry", "Flattening nested results keeps one entry for every leaf, under the joined key path.",
  "all nested dictionaries and key sets", W_IN, ["flixOpt/results.py:flatten_dict", "flixOpt/utils.py:label_is_valid"])
p("Previous operating time", "The consecutive duration computed from previous binary states is the length of the trailing run of ones, weighted with the step lengths, and 0 if the last state is 0.",
  "all binary histories, step lengths", W_IN, ["flixOpt/features.py:OnOffModel.get_consecutive_duration"])
p("Previous component state", "A component counts as previously on if any of its flows had a non-zero previous flow rate.",
  "all numbers of flows and previous values", W_IN, ["flixOpt/features.py:OnOffModel._previous_on_values"])
p("Effect values are read-only", "Building and transforming elements does not change the effect dictionaries passed by the user, so one dictionary may be shared by several elements with the same meaning for each.",
  "all sharing patterns and transform histories", W_HIST, ["flixOpt/effects.py:effect_values_to_time_series"])
p("Repeated calculations", "Modelling the same flow system again (same time indices) hands the same optimisation problem to the solver, although modelling adds default on/off and invest parameters to elements.",
  "all flow systems, all numbers of repetitions", W_HIST, ["flixOpt/elements.py:ComponentModel.do_modeling", "flixOpt/components.py:TransmissionModel.do_modeling", "flixOpt/calculation.py:FullCalculation"])
p("Configuration merging", "Merging a user configuration into the defaults yields the user's value where given and the default elsewhere, at every nesting level.",
  "all nested dictionaries", W_IN, ["flixOpt/config.py:merge_configs"])
p("Generated time axes", "create_datetime_array returns start + i*interval for i < steps, or all such stamps before end.",
  "all starts, intervals, step counts, ends", W_IN, ["flixOpt/flow_system.py:create_datetime_array"])
p("Balance tables add up", "The rows of a bus result table with the default signs (inputs negative, outputs positive, excess included) add up to zero at each time step.",
  "all buses and feasible points", W_SYS, ["flixOpt/results.py:BusResults", "flixOpt/results.py:CalculationResults"])
p("Feasible systems stay feasible", "Adding default on/off bookkeeping does not exclude operation: every flow schedule that is zero or within the positive limits at each step extends to values of the on, switch and hour variables satisfying all on/off constraints.",
  "all schedules, horizons, limits", W_SYS, ["flixOpt/features.py:OnOffModel"])
p("Earlier calculations leave no trace", "Calculations of other time indices made before with the same flow system do not change the optimisation problem a later calculation hands to the solver.",
  "all flow systems, all histories of earlier calculations", W_HIST, ["flixOpt/elements.py:ComponentModel.do_modeling", "flixOpt/components.py:TransmissionModel.do_modeling"])
p("Segmented calculations leave no trace", "After a segmented calculation has finished, every later calculation of the flow system hands the solver the problem it would have handed before.",
  "all flow systems, segmentations, solver answers and later time indices", W_HIST, ["flixOpt/calculation.py:SegmentedCalculation", "flixOpt/calculation.py:SegmentedCalculation._reset_start_values"])
p("Running a segmented calculation again", "Running the same segmented calculation a second time solves the same segment problems again.",
  "all flow systems, segmentations and solver answers", W_HIST, ["flixOpt/calculation.py:SegmentedCalculation.do_modeling_and_solve"])
p("Programs are self-contained", "Every row of the optimisation problem handed to the solver, and its objective, refers only to variables declared in that problem and to entries within their lengths, and no two variables share a label; so the values of the declared variables alone decide which points are feasible and what they cost.",
  "all flow systems, time indices and aggregation settings for which modelling succeeds; all points", W_SYS, ["flixOpt/structure.py:SystemModel", "flixOpt/math_modeling.py:MathModel", "flixOpt/math_modeling.py:PyomoModel"])
p("Aggregation only restricts", "Every feasible point of an aggregated calculation is, apart from the value of the penalty total, a feasible point of the full calculation with the same time indices, and its objective is the objective of that point plus the penalty for corrections; so every law of the full calculation holds in aggregated ones too.",
  "all flow systems, clusterings, aggregation parameters and feasible points", W_SYS, ["flixOpt/aggregation.py:AggregationModel", "flixOpt/calculation.py:AggregatedCalculation"])
p("Flows are not over-constrained", "The variables and constraints created for a flow admit every schedule its parameters allow: any rates within the limits, any allowed size, any on/off pattern and totals obeying the stated rules can be completed by values for the remaining variables of the flow so that all of them are satisfied.",
  "all flow systems, flows, parameters (investments with and without segmented effects) and schedules", W_SYS, ["flixOpt/elements.py:FlowModel", "flixOpt/features.py:InvestmentModel", "flixOpt/features.py:OnOffModel"])
p("The program describes exactly the allowed plans", "For a sensible flow system, the optimisation problem admits a plan (rates, on/off states and starts, sizes and investment decisions, stored energies, excesses, effect totals) with some values of its auxiliary variables exactly if the plan obeys every rule the user stated: the limits of each flow, the on/off rules of flows and components, exclusive flows, conversion, segments, storage and transmission laws, investment rules, bus balances, effect totals with their limits, and the penalty.",
  "all flow systems with sensible data (distinct bus labels, values for every step, at least two steps), time indices and plans", W_SYS, ["flixOpt/structure.py:SystemModel", "flixOpt/elements.py", "flixOpt/components.py", "flixOpt/effects.py", "flixOpt/features.py"])
p("The optimum is the cheapest allowed plan", "A solution minimises the objective handed to the solver exactly if no plan obeying the rules is cheaper; the optimisation problem is solvable exactly if some plan obeys the rules, and the objective values of its solutions are the costs such plans can have.",
  "all flow systems with sensible data, time indices, solutions and plans", W_SYS, ["flixOpt/structure.py:SystemModel", "flixOpt/effects.py:EffectCollectionModel", "flixOpt/calculation.py:FullCalculation"])
p("What a time series returns after any use", "However often a time series has been activated (with or without aggregated data, accepted or refused) and reset, it returns the aggregated data accepted last since the latest reset if there are any, and otherwise the user's values at the indices activated last; the user's data, label, weight and group never change, and exactly aggregated data without indices or of the wrong length are refused.",
  "all time series and all sequences of activations and resets", W_HIST, ["flixOpt/core.py:TimeSeries.activate_indices", "flixOpt/core.py:TimeSeries.active_data", "flixOpt/core.py:TimeSeries.active_data_vector", "flixOpt/core.py:TimeSeries.clear_indices_and_aggregated_data"])
p("Loading a configuration", "Loading a configuration file either puts a complete, well-typed configuration with the values of the file in force or raises and leaves the previous configuration unchanged; assignments of wrongly typed values are refused; exporting and reloading a configuration gives it back; so after any history the configuration in force is complete.",
  "all configuration files, assignments and sequences of them", W_HIST, ["flixOpt/config.py:CONFIG.load_config", "flixOpt/config.py:dataclass_from_dict_with_validation", "flixOpt/config.py:ValidatedConfig", "flixOpt/config.py:CONFIG.to_dict"])
p("Merging configurations", "In a merged configuration a path of keys leads to a value exactly if it does in the overrides, or if it does in the defaults and the overrides have no value on the way, at any nesting depth.",
  "all nested configurations, overrides and paths", W_IN, ["flixOpt/config.py:merge_configs"])
p("An aggregated calculation is the full one with ties", "The problem of an aggregated calculation admits exactly the solutions of the full calculation in which every tied quantity (time-dependent quantities of the chosen components, all of them or the yes/no ones only) has equal values at paired steps, where yes/no quantities may differ at the allowed number of pairs; its objective is that of the full calculation plus the penalty for each deviation. So its optimum is the cheapest such solution, and it can be solved exactly if one exists.",
  "all flow systems with distinct component labels, clusterings, aggregation parameters, choices of components and solutions", W_SYS, ["flixOpt/aggregation.py:AggregationModel", "flixOpt/calculation.py:AggregatedCalculation"])
p("Combined results of segments obey the laws", "Each segment of a segmented calculation is the calculation of the original system on the steps of the segment with other start values only, those reached in the previous segment. The combined results obey in every step of the horizon the laws of the original system: bus balances, conversion, segments, transmission, limits and profiles of flows, storage levels, on/off states, exclusive flows and what is charged to the effects; starts and stops are booked rightly, also at the borders of segments.",
  "all flow systems whose transmissions with absolute losses have some in every segment, segment and overlap lengths, solutions of the segments and steps", W_SYS, ["flixOpt/calculation.py:SegmentedCalculation", "flixOpt/calculation.py:SegmentedCalculation._transfer_start_values"])
p("Run times across segments", "In the combined results of a segmented calculation no flow runs longer at a time than its maximum or shorter than its minimum consecutive on hours.",
  "all flow systems, segment and overlap lengths, solutions of the segments and runs", W_SYS, ["flixOpt/calculation.py:SegmentedCalculation._transfer_start_values", "flixOpt/features.py:OnOffModel"])
p("Extraction of results", "Extracting results under a list of keys from a dict of results gives, in the order of the items, exactly the items under whose value the keys lead to something other than None, each once with what they lead to; with keep_none all items are listed, the others with None.",
  "all nested result dicts and lists of keys", W_IN, ["flixOpt/results.py:extract_results", "flixOpt/results.py:extract_single_result"])
p("Tables of results", "For every component, bus and flow the table of flow rates has exactly the columns of its flows (and the excess of a bus) having a value further from zero than the threshold, each once, with the flow rates times the factor of the side in the order of time, labelled with the beginnings of the steps, the last row repeated for the end of the last step if asked for. Labels of no element are refused.",
  "all flow systems, solutions, elements, factors, thresholds and both settings of the last step", W_SYS, ["flixOpt/results.py:CalculationResults.to_dataframe", "flixOpt/results.py:ComponentResults.to_dataframe", "flixOpt/results.py:BusResults.to_dataframe", "flixOpt/results.py:FlowResults.to_dataframe"])
p("Main results show this calculation", "Once a calculation has been modelled and solved, its main results show its own solution, whatever else is done with the flow system: for each effect the operation, invest and overall totals, the penalty, the objective, each investment with its size under 'invested' if the size exceeds 0.001 and otherwise under 'not invested', and as buses with excess exactly those whose excess adds up to more than 0.001.",
  "all flow systems, time indices, numbers of calculations on one system, histories of modelling and solving them, and solver answers", W_HIST, ["flixOpt/structure.py:SystemModel.main_results", "flixOpt/structure.py:SystemModel.solve", "flixOpt/calculation.py:FullCalculation.solve"])
p("The network picture", "network_infos() shows each component and each bus once as a node of its class and each flow as one edge from the bus to the component if the component draws it and from the component to the bus if the component feeds it; both ends of each edge are nodes. For the named components (sources, sinks, storages, transmissions, boilers, heat pumps, ...) the flows run the way their argument names say; a source-and-sink with prevention never does both in a step.",
  "all flow systems, set iteration orders and feasible points", W_SYS, ["flixOpt/flow_system.py:FlowSystem.network_infos", "flixOpt/elements.py:Flow.is_input_in_comp", "flixOpt/components.py:SourceAndSink", "flixOpt/linear_converters.py"])
p("The order of elements does not matter", "Whether a list of elements is accepted by a new flow system, and which optimisation problem results (the allowed assignments, their objective values and so the best ones), does not depend on the order in which the elements are added nor on the order in which Python iterates its sets of flows.",
  "all lists of elements, orders of adding them, iteration orders of sets, time indices and assignments", W_SYS, ["flixOpt/flow_system.py:FlowSystem.add_elements", "flixOpt/flow_system.py:FlowSystem.buses", "flixOpt/components.py:LinearConverterModel", "flixOpt/structure.py:SystemModel.do_modeling"])
p("Valid systems are accepted", "A flow system with valid data (at least two steps, chosen steps in range, every time series a number or one value per step, effect values addressed to registered effects with no effect twice, storages and transmissions of the right shape, an objective) and well-chosen labels is accepted by every calculation: modelling raises no exception, whatever the iteration order of sets, and the resulting problem has as solutions exactly the plans obeying the rules.",
  "all flow systems, time indices, configurations and set iteration orders", W_SYS, ["flixOpt/calculation.py:FullCalculation.do_modeling", "flixOpt/structure.py:SystemModel", "flixOpt/math_modeling.py:Equation.add_summand", "flixOpt/elements.py", "flixOpt/components.py", "flixOpt/features.py", "flixOpt/effects.py"])
p("Valid systems stay accepted, also in segments", "A flow system with valid data and well-chosen labels stays valid whatever problems are built from it: the defaults that modelling writes into its flows and the start values handed over between segments never make a later calculation fail. A segmented calculation of it runs through: only the solver can end it, whatever values the solver returned for earlier segments, and afterwards the flow system is as valid as before. Any window of at least two steps can be calculated.",
  "all flow systems, histories of calculations, segment and overlap lengths, solver answers and windows", W_HIST, ["flixOpt/calculation.py:SegmentedCalculation.do_modeling_and_solve", "flixOpt/calculation.py:SegmentedCalculation._transfer_start_values", "flixOpt/calculation.py:SegmentedCalculation._reset_start_values", "flixOpt/elements.py:ComponentModel.do_modeling", "flixOpt/components.py:Transmission"])
p("Widening limits never makes the best result worse", "If limits of a flow system are widened (larger sizes and maximum investments, smaller minima, wider relative limits, flow-hour, load-factor, on/off, storage and effect limits, limits or fixed profiles dropped where the new limits contain them) and nothing else is changed, every solution of the original calculation is a solution of the new one at the same objective value: a solvable calculation stays solvable and the optimum is at least as good.",
  "all pairs of flow systems differing in limits only, time indices and solutions", W_SYS, ["flixOpt/elements.py:FlowModel", "flixOpt/features.py:InvestmentModel", "flixOpt/features.py:OnOffModel", "flixOpt/components.py:StorageModel", "flixOpt/effects.py:EffectModel", "flixOpt/interface.py:InvestParameters"])
p("Aggregated calculations need even steps and whole periods, and nothing more", "An aggregated calculation is set up only if all its time steps have one length and a period is a whole number of steps; uneven steps are refused with a ValueError, broken periods with an exception. For a flow system with valid data and well-chosen labels, even steps and whole periods, any clustering of its steps, any choice of its components and any aggregation parameters are accepted.",
  "all flow systems, time indices, period lengths, clusterings, component selections and aggregation parameters", W_SYS, ["flixOpt/calculation.py:AggregatedCalculation.do_modeling", "flixOpt/aggregation.py:AggregationModel.do_modeling", "flixOpt/aggregation.py:AggregationModel.equate_indices", "flixOpt/aggregation.py:AggregationParameters"])
p("Aggregation takes each time series to the right place and back", "An aggregated calculation hands to the clustering exactly those parameters of its elements (limits, profiles, efficiencies, conversion factors, losses, values per effect, run-time limits, penalties, effect limits and shares) whose data is not constant, each once, under the label of its element and role, with the values of the chosen steps. If the aggregated data is used, the problem is that of the system in which each of these parameters shows the column that came back under its label in the steps of the calculation, and nothing else is changed. Nothing stops a flow system with valid data and well-chosen labels from being aggregated this way.",
  "all flow systems, time indices, clusterings and returned columns", W_SYS, ["flixOpt/calculation.py:AggregatedCalculation.do_modeling", "flixOpt/aggregation.py:TimeSeriesCollection", "flixOpt/core.py:TimeSeries", "flixOpt/structure.py:_create_time_series", "flixOpt/flow_system.py:FlowSystem.all_time_series", "flixOpt/elements.py:Flow.transform_data", "flixOpt/components.py:LinearConverter.transform_data", "flixOpt/effects.py:effect_values_to_time_series"])
p("Bars, arranged arrays and heat maps show the data they are given",
  "In a stacked bar plot every column has, at every step, one bar as long as the part of its value above zero and one as long as the part below zero, both in its own colour; bars start exactly where the bars of the columns before it end, so they neither overlap nor leave gaps. Arranging an array in columns of k steps is possible for every k above zero; reading the columns one after the other gives the array back, with empty entries at the end of the last column only; other k are refused. A heat map has exactly one cell for every calendar step from the first to the last datum, and the cell shows the mean of exactly the data of that step; steps without data stay empty, or take the value of the nearest earlier (later) step with data if filling is asked for, and then no cell stays empty. Only the documented combinations of period and step are accepted.",
  "all tables, colours, arrays, numbers of steps per column, time stamps, combinations of period and step, ways of filling and namings of dates", W_IN,
  ["flixOpt/plotting.py:with_matplotlib", "flixOpt/plotting.py:reshape_to_2d", "flixOpt/plotting.py:heat_map_data_from_df"])
p("An area plot draws every column once",
  "Every area drawn shows one column of the table in its own colour, with its values (values closer to zero than 1e-5 are drawn as zero); it is stacked above zero only if no value is negative, below zero only if no value is positive, and otherwise drawn as a dashed line. Every column is drawn exactly once.",
  "all tables and colours", W_IN,
  ["flixOpt/plotting.py:with_plotly"])
p("Adding equipment that may stand idle never makes the best result worse",
  "Take a system and add one more component that is allowed to do nothing: a rate of zero is within the limits of its flows, investments may be declined without cost, on/off rules do not ask for running and it was not running before, a store may stay empty, a segmented conversion may be left or starts at zero. Then every solution of the old system is, together with the new component standing idle, a solution of the new system with the same objective value, and the optimum of the new system is at least as good as any result of the old one. New buses, effects of running, starts and sizes do not change this.",
  "all flow systems, components of every kind added at any place, horizons, choices of steps and solutions", W_SYS,
  ["flixOpt/calculation.py:FullCalculation.do_modeling", "flixOpt/features.py:InvestmentModel", "flixOpt/features.py:OnOffModel", "flixOpt/elements.py:FlowModel", "flixOpt/components.py:StorageModel"])
p("Only what the data says counts, not how it is written",
  "Writing a constant as a number or as an array of equal entries, an array as TimeSeriesData with any group or weight, or a factor as a different but equal fraction changes nothing: for every solution of the one calculation there is one of the other with the same flow rates, charge states, sizes and states and the same objective value. The same holds whenever two calculations agree in the length of every step and in the value of every parameter at every step.",
  "all pairs of flow systems and choices of steps whose data agrees, and all solutions", W_SYS,
  ["flixOpt/core.py:TimeSeries.active_data", "flixOpt/elements.py:FlowModel", "flixOpt/features.py:OnOffModel", "flixOpt/calculation.py:FullCalculation.do_modeling"])
p("The time axis may be moved, and chosen steps are a system of their own",
  "Moving all time stamps by the same amount changes neither acceptance nor solutions nor objective values. A calculation with chosen time steps, with or without gaps, is accepted exactly as a whole-horizon calculation of the system cut down by hand to these steps (time stamps and arrays), and has the same solutions and objective values.",
  "all flow systems, shifts, lists of chosen steps and solutions", W_SYS,
  ["flixOpt/flow_system.py:FlowSystem.get_time_data_from_indices", "flixOpt/core.py:TimeSeries.active_data", "flixOpt/calculation.py:Calculation", "flixOpt/components.py:StorageModel"])
p("The description of the problem is true",
  "The sizes a calculation states (single equations, single inequations, variables, single variables, variables with several values) are those of the problem the solver gets. The listings of variables and constraints in its model information name every variable of the problem exactly once, every constraint exactly once and the objective once, each under the labels of its component, flow, bus or effect. The line printed for a constraint is its first row: its constant, its comparison and its summands, a sum being shown by its first summand.",
  "all flow systems, time indices, set iteration orders and constraints", W_SYS,
  ["flixOpt/math_modeling.py:MathModel.infos", "flixOpt/math_modeling.py:MathModel.describe_size", "flixOpt/math_modeling.py:Equation.description", "flixOpt/structure.py:SystemModel.description_of_variables", "flixOpt/structure.py:ElementModel.description_of_constraints"])
p("Labels are only names",
  "Giving other labels to the components, flows, buses and effects of a system changes nothing but names, as long as no two quantities get the same name: the system is still accepted, for every solution there is one of the renamed system with the same values under the new names and the same objective value, and the other way round.",
  "all flow systems, new labels, choices of steps, set iteration orders and solutions", W_SYS,
  ["flixOpt/structure.py:Element.label_full", "flixOpt/elements.py:Flow.label_full", "flixOpt/structure.py:create_variable", "flixOpt/structure.py:create_equation", "flixOpt/calculation.py:FullCalculation.do_modeling"])
p("Saved calculations survive other saves and crashes",
  "After a save that ran to its end, loading the calculation by its name and folder gives back exactly the results, data and infos that were saved, whatever else was or is saved under other names or in other folders, finished or not. If a save stops anywhere, by a crash or by an exception, loading fails or gives the complete results and data of one save of that name, never part of a file and never a mixture.",
  "all saved values, names, folders, contents of the disk, histories of saves and points at which each of them stops, within a number or line too", W_HIST,
  ["flixOpt/calculation.py:Calculation._define_path_names", "flixOpt/calculation.py:Calculation._save_solve_infos", "flixOpt/calculation.py:SegmentedCalculation._save_solve_infos", "flixOpt/results.py:CalculationResults"])
p("Parts with nothing in common can be optimised separately",
  "If the components of a system fall into two groups that share no bus, no effect has a limit and no name is used twice, then the system can be solved exactly if both groups can be solved on their own. Every solution of the whole consists of one solution of each group and its totals are the sums of theirs, every two solutions of the groups make one of the whole, and the optimum of the whole is the sum of the optima. With a limit on an effect this is not so.",
  "all flow systems, all ways to divide their components, choices of steps, set iteration orders and solutions", W_SYS,
  ["flixOpt/calculation.py:FullCalculation.do_modeling", "flixOpt/effects.py:EffectCollectionModel", "flixOpt/elements.py:BusModel", "flixOpt/flow_system.py:FlowSystem"])
p("Presolve figures are those written in the solver's log",
  "Reading a gurobi log never fails: rows, columns, nonzeros, continuous, integer and binary figures are exactly the numbers of the first place where the two presolve lines stand, whatever stands before or after, and none is given if they stand nowhere. From a cbc log the size figures and the integer figures are those of the first line about each, the continuous figure is columns minus integers, and reading fails exactly when a line about integers stands there and none about the size. For glpk nothing is given; every other solver name is refused.",
  "all texts a log file may hold, all numbers in it, all solver names", W_IN,
  ["flixOpt/math_modeling.py:SolverLog.parse_infos", "flixOpt/math_modeling.py:SolverLog.infos", "flixOpt/math_modeling.py:GurobiSolver.solve"])
p("The units in which effects are counted are free",
  "If every amount of an effect in the data of a flow system is given in another unit (prices of flows, of starts, of running hours, of investments and their segments, limits, shares between effects, and bus penalties in the unit of the objective), then every solution of the one problem corresponds to a solution of the other with the same rates, states, sizes, stored energies and excesses, with effect totals and objective converted; the best plans correspond, and a system accepted for its data and labels is accepted in every unit.",
  "all flow systems with sensible data, all positive unit factors per effect, all selections of time steps, all solutions", W_SYS,
  ["flixOpt/effects.py:Effect", "flixOpt/effects.py:EffectCollectionModel", "flixOpt/features.py:InvestmentModel", "flixOpt/features.py:OnOffModel", "flixOpt/elements.py:FlowModel", "flixOpt/elements.py:BusModel"])
p("Solutions with the same decisions can be mixed",
  "If two solutions of an optimisation problem switch the same flows and components on at the same times, make the same optional investments and use the same segments, then for every weight between 0 and 1 the weighted mean of the two schedules is again a solution of the problem (after the helper quantities are filled in) and its objective is the same weighted mean of the two objectives. In a system without on/off operation, exclusive flows, optional or segmented investments and segmented conversions this holds for any two solutions. So every step from a solution towards a better one with the same decisions is a solution and an improvement, and mixtures of optimal solutions with the same decisions are optimal.",
  "every system (of every kind of component) with sensible data, every selection of time steps, every two solutions, every weight",
  W_SYS, ["flixOpt/elements.py:FlowModel", "flixOpt/features.py:OnOffModel", "flixOpt/features.py:InvestmentModel", "flixOpt/components.py:StorageModel", "flixOpt/effects.py:EffectModel", "flixOpt/structure.py:SystemModel"])
p("What the documentation of a flow system shows",
  "Saving an element or a flow system as a document (to_json, or printing it) keeps every plain value as it is; an array of at most 50 numbers is written out completely with every number rounded to the nearest multiple of 0.01 (numbers with two decimals and integers are exact, so two arrays that look the same differ by 0.01 at most); a longer array is replaced by its true minimum, maximum, mean, median, standard deviation, length and centre of mass, where the shown mean and median lie between the shown minimum and maximum and the centre of values that are not negative lies between 0 and 1. Every component, bus and effect appears exactly once under its label, in alphabetical order regardless of case, flows with their direction inside their component. The document does not depend on the order in which the elements were added, unless two labels differ only in case. It can always be written as JSON, unless the data holds an array of truth values.",
  "every convertible value of any depth, every threshold and number of decimals, every flow system with distinct labels, every order of adding elements",
  W_IN, ["flixOpt/structure.py:get_compact_representation", "flixOpt/structure.py:Interface.to_json", "flixOpt/flow_system.py:FlowSystem.infos", "flixOpt/flow_system.py:FlowSystem.to_json", "flixOpt/elements.py:Component.infos", "flixOpt/elements.py:Flow.infos"])
p("A segmented calculation is never better than the full one",
  "Whatever a segmented calculation over the whole horizon puts together from its segments could also have been planned by an ordinary calculation: there is a solution of the ordinary problem with the same rates, states, starts, stored energies, excesses and effects per step, whose objective is the sum of the effect over all steps plus the penalties of the buses. So the optimum of the ordinary calculation never costs more than the segmented result.",
  "all flow systems, segment lengths, overlaps and solver answers for the segments; all solutions of the ordinary problem", W_HIST,
  ["flixOpt/calculation.py:SegmentedCalculation", "flixOpt/calculation.py:FullCalculation", "flixOpt/calculation.py:SegmentedCalculation.results", "flixOpt/effects.py:EffectCollectionModel"])
p("A plot of an element's operation shows every series of it once, and a bus plot balances",
  "The plot of the operation of a component, bus or flow of a solved calculation shows each of its flows (and the surplus and deficit of a bus) that has a value over 1e-5, once, under its name, over the time stamps of the calculation including the end of the last step, with the reported values (in plots of areas values next to zero as zero) and the sign asked for, and nothing else. In the plot of a bus what is drawn above and below zero reaches equally far in every step, up to the values too small to be drawn. The plot of a storage also shows its charge state at every time stamp. The figure is of the form asked for (bars, lines, areas, heat map), and the series take the colours asked for, bars and lines in their order. Labels that exist nowhere, unknown engines and modes and a wrong number of colours are refused.",
  "for every flow system, solution, element, engine, mode and sign convention", W_SYS, ["flixOpt/results.py: CalculationResults.plot_operation, CalculationResults.plot_storage, CalculationResults.to_dataframe", "flixOpt/plotting.py: with_plotly, with_matplotlib"])
p("A change of prices moves the optimum the way it should",
  "If the effects per flow hour of flows are changed in terms of the effect that is minimised, every schedule that was possible stays possible and the other way round, and its cost changes by exactly the change of each price times the energy of that flow. Hence the optimum changes by at most what the old best plan costs more and by at least what the new best plan costs more; measured by the change of prices the new best plan uses no more than the old one; if flows become dearer by a common amount, the best plan uses no more of them; and higher prices never make the optimum cheaper. (Wrong in general if costs have to reach a minimum.)",
  "every flow system of any size with sensible data, every change of prices over time and flows, every selection of time steps, every pair of optimal solutions", W_SYS,
  ["flixOpt/elements.py:FlowModel", "flixOpt/effects.py:EffectModel", "flixOpt/effects.py:EffectCollectionModel", "flixOpt/features.py:ShareAllocationModel", "flixOpt/calculation.py:FullCalculation"])
p("A segmented calculation finds the optimum when nothing connects the steps",
  "If a system has no storages, no on/off behaviour, no investments and no limits on totals, and every segment is solved to optimality, then the combined result of a segmented calculation, with or without overlap, is the schedule of an optimal solution of the ordinary calculation over the whole horizon, and it costs exactly what every optimal solution costs: nothing is lost by calculating in segments.",
  "every such flow system of any size with sensible data, every length of segments and overlap within the horizon, every optimal solution the solver may return for each segment and for the whole", W_SYS,
  ["flixOpt/calculation.py:SegmentedCalculation", "flixOpt/calculation.py:SegmentedCalculation.do_modeling_and_solve", "flixOpt/calculation.py:SegmentedCalculation.results", "flixOpt/calculation.py:FullCalculation"])
p("Every solve gets its own settings and is reported as it was",
  "However often solver objects and calculations are used in any order, each solve asks the solver exactly once, for the program of this calculation, with the accuracy, time limit, number of threads and console setting the solver object was created with, under the names this solver understands, and with the log in the file of this calculation. A calculation that was solved reports the objective, bound, message and log of its own solve, and who gets a solution that is not the optimum is warned.",
  "every sequence of modelling and solving calls on any number of calculations and solver objects of all five classes, every answer or failure of the solver", W_HIST,
  ["flixOpt/math_modeling.py:GurobiSolver.solve", "flixOpt/math_modeling.py:HighsSolver.solve", "flixOpt/math_modeling.py:CplexSolver.solve", "flixOpt/math_modeling.py:CbcSolver.solve", "flixOpt/math_modeling.py:GlpkSolver.solve", "flixOpt/math_modeling.py:MathModel.solve", "flixOpt/math_modeling.py:MathModel.infos", "flixOpt/calculation.py:FullCalculation.solve", "flixOpt/structure.py:SystemModel.main_results"])

p("A system that can be operated has a best way to be operated",
  "If the effects are passed on in some order (each only to later ones) and no bus pays for imbalance, then the objective of all solutions is bounded below: no solver can find the problem of a flow system unbounded. All rates, sizes and effect totals stay within limits that depend on the data only. If there is any solution, then there is an optimal one, and its cost is the smallest of all plans that obey the rules of the system. Both conditions are needed: effects passed on in a circle of three, or a negative penalty, make a harmless system unbounded.",
  "every flow system that can be built, with any number of components, effects, time steps, investments with segments and on-off decisions; every solution", W_SYS,
  ["flixOpt/structure.py:SystemModel", "flixOpt/effects.py:EffectCollectionModel.do_modeling", "flixOpt/effects.py:Effect._plausibility_checks", "flixOpt/features.py:InvestmentModel", "flixOpt/elements.py:FlowModel", "flixOpt/elements.py:BusModel.do_modeling"])

p("The cost of the best plan belongs to the system and moves the right way",
  "For a system whose effects are passed on in some order and whose buses do not pay for imbalance, there is a best cost exactly if there is a solution, and it is one number, whichever optimal solution is found. If limits are widened (as in C72), or a component that may stand idle is added (as in C77), a best cost still exists and is no higher. What a segmented calculation puts together (as in C88) costs at least the best cost of the ordinary calculation, which exists. If prices of flow hours change in terms of the minimised effect, on which no limit depends, a best cost exists before exactly if it does after, it does not fall when prices rise and rates cannot be negative, and at prices in between it is at least the mean of the best costs at both ends.",
  "every flow system that can be built and every change of it of these kinds, with any number of components and time steps", W_SYS,
  ["flixOpt/structure.py:SystemModel", "flixOpt/effects.py:EffectCollectionModel.do_modeling", "flixOpt/elements.py:FlowModel.do_modeling", "flixOpt/calculation.py:SegmentedCalculation"])

p("The drawing of the network shows the system",
  "visualize_network draws one box for every component, one circle for every bus that is used and one arrow with its label for every flow, in the direction in which energy goes, and nothing else. If a path is given, the drawing is saved there, before it is opened in the browser; with False for the path it is not saved. It is opened only if this is asked for. If the file cannot be written, the call fails and nothing is opened. The network is returned unless pyvis is not installed; then nothing happens. Drawing fails for no other reason.",
  "every flow system that can be built, every path and every combination of options, and whether or not pyvis is installed and the file can be written", W_SYS,
  ["flixOpt/plotting.py:visualize_network", "flixOpt/flow_system.py:FlowSystem.visualize_network", "flixOpt/flow_system.py:FlowSystem.network_infos"])

p("Each further unit of demand costs at least as much as the one before",
  "Take one system with two sets of limits (profiles and limits of rates where sizes are given, limits of the effects) and a third set that is nowhere stricter than their weighted mean. Two solutions at both ends that take the same on/off and investment decisions give a solution in between whose rates and other quantities are the weighted means, at the weighted mean of the costs. If nothing has to be decided, a system that can be operated at both ends can be operated in between, the best cost there is at most the mean of the best costs, and half way the second half of the way costs at least as much as the first: the marginal cost of a demand, and of saving an emission, never falls.",
  "every flow system, every pair of sets of limits, every weight between 0 and 1, every pair of solutions", W_SYS,
  ["flixOpt/elements.py:FlowModel", "flixOpt/effects.py:EffectModel", "flixOpt/features.py:ShareAllocationModel", "flixOpt/calculation.py:FullCalculation.solve"])

p("Log messages are written once, from the level on that was asked for last",
  "After any sequence of loading configurations and changing the logging level, in which calls may fail, a message is written exactly once to the console and exactly once to the current log file if its level is at least the one that was asked for last, and nowhere otherwise. The five names of levels are recognised whether in capitals or not; any other name makes the call fail and changes nothing. If the log file cannot be opened, the call fails, and messages go to the console only. In the file every line of a message is one line that begins with the time and the level; on the console the same lines appear in the colour of their level, for messages whose lines end with line feeds only.",
  "every history of calls, every set of files that can or cannot be opened, every message", W_HIST,
  ["flixOpt/config.py:setup_logging", "flixOpt/config.py:change_logging_level", "flixOpt/config.py:get_logging_level_by_name", "flixOpt/config.py:MultilineFormater", "flixOpt/config.py:ColoredMultilineFormater", "flixOpt/config.py:_get_logging_handler"])

p("The unit of energy and power is free",
  "Giving all sizes, capacities, rates, stored energies and limits on energy in another unit (kW instead of MW), and all prices per unit of energy or power accordingly, changes nothing: every plan of the one system is, converted, a plan of the other at the same cost, the best cost is the same and the best plans are the same. For this the two constants of the configuration, the smallest rate that counts as running (EPSILON) and the size of what has no size (BIG), have to be given in the new unit as well; with the constants left as they are, a system that has a plan in one unit can have none in another.",
  "every flow system with sensible data, every positive conversion factor, every plan", W_SYS,
  ["flixOpt/elements.py:Flow", "flixOpt/elements.py:FlowModel", "flixOpt/features.py:OnOffModel", "flixOpt/features.py:InvestmentModel", "flixOpt/components.py:StorageModel", "flixOpt/components.py:Transmission", "flixOpt/config.py:CONFIG"])

p("A finer time grid never makes the best result worse",
  "Dividing every step of a system into the same number of equal steps, with all data held over the parts, gives a system in which every plan of the first can still be carried out: with the same rates and sizes, the same charges at the old step borders, the same effects in total and the same objective. So the best result on the finer grid is never worse. This holds as long as there are no start-up effects, and stores have no losses over time, limits that are single numbers and no demand to end as they began; for a store with losses, or one that is to end as it began, the finer system can be unsolvable although the coarse one is not.",
  "every flow system with sensible data, every number of parts, every plan", W_SYS,
  ["flixOpt/flow_system.py:FlowSystem", "flixOpt/elements.py:FlowModel", "flixOpt/components.py:StorageModel", "flixOpt/features.py:OnOffModel", "flixOpt/effects.py:EffectModel"])

p("The report on a clustering names every step once and can be asked for again; its pictures show the data",
  "The report of an aggregation has an entry for every cluster and says of every time step exactly once, and correctly, to which cluster it belongs; there is a report exactly if every period begins before the end of the data and belongs to a known cluster. Asked for a second time, the report is the same. The comparison of original and aggregated data has a dashed line with the original and a full line with the aggregated values of each column, in the same colour for columns at the same place. A heat map draws every cell of the table in the row and column of its labels, and its range of colours runs from the least to the greatest value.",
  "every clustering (number of steps, length of periods, assignment of periods), all sets of extreme periods, all tables, with or without empty cells", W_SYS,
  ["flixOpt/aggregation.py:Aggregation.describe_clusters", "flixOpt/aggregation.py:Aggregation.use_extreme_periods", "flixOpt/aggregation.py:Aggregation.plot", "flixOpt/aggregation.py:Aggregation.get_cluster_indices", "flixOpt/plotting.py:heat_map_matplotlib", "flixOpt/plotting.py:heat_map_plotly"])

p("Where nothing is switched, a finer time grid makes no difference",
  "If every step of a system is divided into the same number of equal steps with the same data, the least cost is the same on both grids, and one of the two systems has a plan exactly if the other has. Every plan on the finer grid can be evened out: with the mean rates over the old steps, the same sizes, the same charges at the old step borders, the same effects in total and the same objective. This holds as long as nothing is switched on and off, in addition to the conditions on stores of the claim on finer grids. A plant that is either off or at full load can need the finer grid.",
  "every flow system with sensible data, every number of parts, every plan on the finer grid", W_SYS,
  ["flixOpt/flow_system.py:FlowSystem", "flixOpt/elements.py:FlowModel", "flixOpt/elements.py:BusModel", "flixOpt/components.py:StorageModel", "flixOpt/components.py:TransmissionModel", "flixOpt/components.py:LinearConverterModel", "flixOpt/effects.py:EffectModel"])

p("The two directions of a transmission belong together",
  "A transmission whose second direction does not begin where the first one ends and end where the first one begins, or that has investment parameters on another flow than the first input, is refused. So a transmission takes from one side and delivers at the other, less losses, in both directions; the second direction has the size of the first one, and costs nothing extra.",
  "every flow system with a transmission in two directions, every plan, every step", W_SYS,
  ["flixOpt/components.py:Transmission.__init__", "flixOpt/components.py:Transmission._plausibility_checks", "flixOpt/components.py:TransmissionModel.do_modeling"])

p("A full name stands for one flow",
  "In an accepted flow system no two flows have the same full name (component label, two underscores, flow label), so every entry of the results belongs to one flow. A label that begins or ends with an underscore or has two in a row cannot be used; other labels of component and flow can be read off the full name, and distinct labels give distinct full names.",
  "every flow system that is accepted, all labels", W_SYS,
  ["flixOpt/structure.py:Element.__init__", "flixOpt/utils.py:label_is_valid", "flixOpt/elements.py:Flow.label_full", "flixOpt/structure.py:SystemModel.all_variables"])

p("What an element says about its own part of the problem",
  "For every element of an accepted system, the model of the element tells the number of its equations, inequations and variables, and of their single rows and values, its parts included; the flat listings of its variables and constraints show all of them.",
  "every accepted flow system, every element of it and every part of an element", W_SYS,
  ["flixOpt/structure.py:ElementModel.overview_of_model_size", "flixOpt/structure.py:ElementModel.all_equations", "flixOpt/structure.py:ElementModel.all_inequations", "flixOpt/structure.py:ElementModel.description_of_constraints"])

p("What is shown after solving",
  "When a calculation is solved before another one on the same flow system is modelled, solving shows its results: operation, invest and total of every effect (effects shown under distinct names), penalty and objective, one list with every investment once under the name of its element with its size, the largest first, a warning for exactly the buses whose excess is above 0.001, and a warning if the penalty is above 10.",
  "every flow system, every history of calls before and between modelling and solving, all values found by the solver", W_SYS,
  ["flixOpt/structure.py:SystemModel.solve", "flixOpt/structure.py:SystemModel.main_results", "flixOpt/utils.py:apply_formating"])

p("Which flows can be made",
  "A flow can be made exactly if its relative minimum is nowhere above its relative maximum, in whichever documented way these are given; a fixed profile without a size leads to a warning only.",
  "every flow, every number of steps, all limits, sizes and profiles", W_SYS,
  ["flixOpt/elements.py:Flow.__init__", "flixOpt/elements.py:Flow._plausibility_checks", "flixOpt/elements.py:Flow.infos", "flixOpt/elements.py:Flow.is_input_in_comp"])

out = os.path.join(os.path.dirname(os.path.abspath(__file__)), "..", "properties.jsonl")
with open(out, "w") as f:
    for q in P: f.write(json.dumps(q) + "\n")
print(len(P))
