# Formal model of flixOpt (Rocq 8.16.1)

## What is modelled

flixOpt turns a Python description of an energy system into a mixed-integer linear program. What a user relies on
is (a) that the program says what the documentation says, for every system, horizon and feasible point, and
(b) that the bookkeeping around it (time axis, time series state, registries, segmented runs, aggregation, result
files) does not lose or mix up anything. The model therefore has two parts:

1. **The model builder**: `math_modeling.py`, `structure.py`, `core.py`, `features.py`, `elements.py`,
   `components.py`, `effects.py`, `interface.py`, `linear_converters.py`, `flow_system.py` as total functions that
   compute, from the user's data, the list of variables and rows handed to pyomo, or the Python exception raised.
   A *feasible point* is any assignment of rationals to variable entries that satisfies all bounds, integrality
   flags and rows. Theorems have the shape
   `build system = Ok program -> feasible program x -> <physical law about x>`, and converses where relevant.
2. **The stateful shell**: TimeSeries histories, registries (add_effects/add_components), segmented calculation,
   aggregation indices, result conversion/flattening, configuration merge: `init`/`step` machines and pure functions.

## Decisions

* Numbers are exact rationals `Q`. Floats are idealised; NaN/inf data are not modelled; infinite bounds are `None`.
  A division by zero, which numpy turns into inf with a warning, is an `Err ZeroDivision` in the model.
* Python exceptions are values: `res A := Ok a | Err exn`.
* `numeric := NS Q | NV (list Q)` with numpy broadcasting (equal lengths, or one side of length 1, else ValueError).
* Variables are identified by their label string. This is sound because SystemModel raises KeyError on duplicate
  labels before translation, so a successful build has unique labels.
* ElementModels form a tree. Builders return the tree and, writer-style, the effect shares they would push into the
  effect models; these are then replayed in order by `add_share`. Nothing in the code reads them in between.
* Python set iteration order is an explicit oracle (`ord`), constrained only to be a permutation.
* The solver, tsam, file system, logging and plotting are external. Solver answers are arbitrary feasible points.

## Files

| file (rocq/theories) | models / contains |
|---|---|
| Base | exceptions as values, numpy-like numbers, list helpers |
| MathModel | `math_modeling.py`: variables, constraints, summands, translation to pyomo |
| Structure | `structure.py`: element models, system model, label checks |
| Params | `core.py` data, `interface.py` parameter classes |
| Features | `features.py`: investment, on/off, durations, segments, shares, mutual exclusion |
| Elements | `elements.py`, `components.py`, `effects.py`: models of flows, buses, components, effects |
| System | `flow_system.py` time data and the whole construction of the optimisation problem (`build`) |
| Library | `components.py` and `linear_converters.py` constructors |
| Series | `core.py` TimeSeries life cycle, `aggregation.py` weights |
| Register | `flow_system.py`, `effects.py`: registration of elements |
| Tree, Values | `results.py`/`config.py`/`structure.py`/`utils.py`: nested dicts, flattening, merging, conversion and saving |
| Results | solving, `results()` of models, `results.py` tables |
| MainResults | `structure.py`: `main_results`, sessions of several calculations on one system |
| Network | `flow_system.py`: `network_infos` |
| Tables | `results.py`: `extract_results`, `to_dataframe` of calculations, components and flows |
| Segmented | what modelling leaves behind in elements; `calculation.py` SegmentedCalculation |
| SharedDicts | `effects.py` effect values as shared dict objects |
| TimeAxis | `flow_system.py` create_datetime_array |
| Aggregation | `aggregation.py` indices and AggregationModel, `calculation.py` AggregatedCalculation |
| Collect | `transform_data` of all elements (which time series exist, under which labels), `aggregation.py` TimeSeriesCollection, `calculation.py` AggregatedCalculation as a whole |
| Plotting | data preparation of `plotting.py`: stacked bars of `with_matplotlib`, areas of `with_plotly`, `reshape_to_2d`, `heat_map_data_from_df` |
| Files | `calculation.py` saving to files, `results.py` loading; JSON text, disk, stopped runs |
| SolverLog | `math_modeling.py` SolverLog: figures read from a solver's log |
| Solving | `math_modeling.py` solver classes, `MathModel.solve`, `calculation.py` solve: what is asked of pyomo, what is kept of its answer |
| Attain | no code: existence of an optimum of a linear program with binary entries (lemmas for C93) |
| ClusterReport | `aggregation.py` describe_clusters, use_extreme_periods and plot; `plotting.py` heat_map_matplotlib and heat_map_plotly |
| Checks | `components.py` Transmission._plausibility_checks (written down, never called) |
| ElementSize | `structure.py` ElementModel: all_equations, flat listings, overview_of_model_size |
| SolveLog | `structure.py` end of SystemModel.solve (messages as data, numbers unrounded), `utils.py` apply_formating sorted by value |
| FlowInit | `elements.py` Flow.__init__, Flow._plausibility_checks; of Flow.infos only that it asks for the component |
| Draw | plotting.visualize_network |
| LogOut | config.py 146-258: formatters, setup_logging, change_logging_level |
| Infos | `infos` of `MathModel` and `SystemModel`: counters, `description_of_variables/constraints`, `description` of constraints and summands |
| Spec, SysSpec, AggSpec, AdmitSpec, PlanSpec, TieSpec, NameSpec, ValidSpec, DataSpec | specification vocabulary: feasibility, step lengths, data at a step, names of quantities, what parameters allow, rules of plans, well-chosen labels, valid data, labelled time-dependent data |
| *Facts, *Laws, *Admits, CollectValid, CollectNames, CollectTotal, Total*, SegTotal, Order*, Plan*, ValidCheck, ReadTools | proof layers; nothing in a theorem statement depends on them |
| Example, ExamplePoints | concrete systems and feasible points for the non-vacuity examples |
| Props* | the theorems named in MANIFEST.json, each with `Print Assumptions` and an `Example` |

## Per-property plan

| id | modelled | proof |
|----|----------|-------|
| C01 bus balance | BusModel, registration of flows in buses, full build | end-to-end theorem from `feasible`; rows located in the tree, row semantics lemma |
| C02 storage balance | StorageModel | end-to-end; closed form by induction over time |
| C03 storage limits | StorageModel bounds, InvestmentModel on charge_state | end-to-end |
| C04 initial/final charge | `_model_initial_and_final_charge_state` | proved for numeric initial value; `_refuted` for 'lastValueOfSim' and for final bounds with initial None |
| C05 conversion | LinearConverterModel with iteration-order oracle | end-to-end |
| C06 named converters | linear_converters.py constructors | corollaries of C05 |
| C07 piecewise | SegmentModel, MultipleSegmentsModel | end-to-end; exactly-one segment argument over 0/1 sums |
| C08 transmission | TransmissionModel, `_preparations` | end-to-end |
| C09, C10 flow limits/profiles | FlowModel, Variable bounds, InvestmentModel | end-to-end |
| C11 sizes | InvestmentModel | end-to-end |
| C12 declining investments | FlowModel + InvestmentModel | `_refuted` with witness; `_partial` with on/off behaviour or limits around zero |
| C13, C14 on/off coupling | OnOffModel | end-to-end |
| C15 switches | OnOffModel | end-to-end, induction over time; `_refuted` for components with several scalar previous values |
| C16 durations | `_get_duration_in_hours` | induction over time; `_refuted` where the prior run is miscounted |
| C17 totals, load factors | FlowModel, OnOffModel | end-to-end |
| C18 exclusive flows | PreventSimultaneousUsageModel | end-to-end |
| C19, C20 effects | ShareAllocationModel, SingleShareModel, EffectCollectionModel | invariant over share lists; end-to-end |
| C21 objective | EffectCollectionModel, translate_objective | end-to-end |
| C22 effect limits | ShareAllocationModel | end-to-end |
| C23 equation assembly | `_Constraint`, Summand | refinement: fold of calls = row semantics; a row made of numbers alone is refused, every row handed over names a variable |
| C24 failing additions | `_Constraint.add_constant` | `_refuted` (constant is kept); holds for add_summand |
| C25 sums over indices | SumOfSummand, `_summand_math_expression` | `_refuted` for general index lists; `_partial` for the identity selection |
| C26 bounds | Variable, translate_variable | direct |
| C27 nothing lost | tree flattening, label checks | induction on trees |
| C28 results | PyomoModel.solve, ElementModel.results | `_refuted` for truncated binaries, cached results, colliding labels; exact otherwise |
| C29 time series | TimeSeries state machine | invariant over histories |
| C30, C31 registration | EffectCollection, FlowSystem | invariant over histories; `_refuted` for batches and effects added later |
| C32 time steps | get_time_data_from_indices | telescoping induction; `_refuted` for last_time_step_hours on non-hourly arrays |
| C33-C36 segmented | SegmentedCalculation | arithmetic + induction over segments; `_refuted` for offsets, truncated predecessors, failures, one-step segments; combining always succeeds (C36_combines, by the outlines of result trees in Skeleton.v: every key of the first segment's results occurs in every later one's) |
| C37, C38 aggregation | Aggregation indices, AggregationModel | induction over cluster order; rows of the aggregation model, located in the tree of each component; `_refuted` where the permitted corrections are rounded up |
| C39 weights | TimeSeriesCollection | `_refuted` for explicit zero weights |
| C40-C42 results | copy_and_convert_datatypes, convert_numeric_lists_to_arrays, flatten_dict | nested induction |
| C43, C44 previous state | get_consecutive_duration, _previous_on_values | `_refuted` + characterisation of the good cases |
| C45 shared dicts | effect_values_to_time_series on a heap | `_refuted` + conditional |
| C46, C51, C52 | default parameters written back by modelling; segmented runs | idempotence of the write-back, absorption of what earlier calculations wrote (prepared_absorb: harmless if this calculation sees absolute losses where they did); commuting with start values; C52_refuted: a pipe with losses in some steps |
| C47, C48 config, time axis | merge_configs, create_datetime_array | nested induction; arithmetic |
| C49 tables | BusResults.to_dataframe | corollary of C01 |
| C50 completeness of on/off | OnOffModel | construct the witness assignment |
| C54 self-contained programs | the whole construction | every builder uses only variables it or its inputs declare; closedness pushed through the tree, then through translation |
| C55 aggregation restricts | AggregationModel in the whole construction | drop the added equations and shares, recompute the penalty total |
| C56 flows not over-constrained | FlowModel with InvestmentModel, OnOffModel | from the user's rules construct values for every variable of the flow; each row checked |
| C57 exactly the allowed plans | whole program as built by `build` against the rules in PlanSpec.v | soundness: from the laws C01–C22; completeness: auxiliary variables constructed model by model (PlanPieces … PlanEffects) and glued (PlanSys); rules depend on plan quantities only (PlanSame) |
| C58 optimum is the cheapest allowed plan | objective and program | corollary of C57 and C21 |
| C59 life of a time series | TimeSeries (core.py 98-182) | sequences of uses split at the last accepted aggregated data or reset; induction from the end |
| C60 loading a configuration | config.py 32-143 (yaml parsing is an argument) | case analysis; invariant over histories; `_refuted` |
| C61 merging configurations | config.py 14-29 | induction on the path |
| C62 aggregated = full + ties | aggregation.py 260-411 | forward: C55's projection plus exact count of the corrections (equate_exact); backward: values of the corrections, their shares and the penalty total are computed from the full solution (agg_back) |
| C63 segments obey the laws | calculation.py 305-470 | C63_problem: `keeping` (C52) for every segment, stripped components prepared alike, start values put back; then the laws C01-C19 of the segment are carried over step by step (part_laws); borders by the handover of C34 |
| C64 run times across segments | calculation.py 420-450, features.py 250-330 | refuted by a run that crosses a border; within a segment by C16 |
| C65 extraction of results | results.py 482-508 | structural induction over the keys, against an inductive path relation |
| C66 tables of results | results.py 88-199, 401-447 | from C28: columns, threshold, index; refuted for a component called like its bus |
| C67 main results | structure.py 133-194, calculation.py | invariant over sessions of modelling and solving; labels of the built tree; refuted with two calculations on one system |
| C68 network picture | flow_system.py 109-128, 277-285, elements.py 279-281, constructors | permutation of the edge list; refuted for a component called like a bus |
| C69 order of elements | flow_system.py 72-107, 277-288, components.py 381-405, structure.py 57-64 | the whole build commutes with permutations: constraints up to the order of summands, trees up to the order of models; refuted for buses with one label |
| C70 valid systems accepted | the whole of structure.py, features.py, elements.py, components.py, effects.py, math_modeling.py as modelled | totality of `build`: each part of the model succeeds for data that fits (Total*.v), labels of different parts never coincide because labels are read as words separated by underscores and no label of an element is a prefix of another (NameFacts.v); conditions on the user's data only in ValidSpec.v and NameSpec.v; refuted for labels that only differ; a decision procedure for the conditions (ValidCheck.v) shows that the example systems meet them |
| C71 valid systems stay accepted | calculation.py SegmentedCalculation, defaults written by modelling | the relation `grown` (defaults added, start values replaced) preserves `valid_data` and `well_named` (SegTotal.v); modelling, hand-over and reset are instances of it; induction over the loop of segments and over histories of modelling; then C70. Refuted for a last segment of one step |
| C72 wider limits | flows, investments, on/off, storages, effects | `wider` compares two systems limit by limit (PropsRelax.v); each rule of PlanSpec is monotone in the limits, so `obeys` is kept; solutions and objective transfer by C57/C21. Refuted for sizes given as zero (falsy, hence unlimited) |
| C73 aggregated calculations accepted | calculation.py AggregatedCalculation.do_modeling, aggregation.py AggregationModel | the checks are characterised by `even_steps` and `whole_periods`; acceptance reuses the stages of C70 (TotalSystem `stage`), adding that the ties of the aggregation have distinct labels under "Aggregation" and fitting lengths (LenFacts, TotalAgg). Refuted for a single pair with a price for deviations |
| C74 data through an aggregation | transform_data of all elements, TimeSeriesCollection, AggregatedCalculation | `system_params` lists the series in order of creation, `given` (DataSpec) says independently which there are (`params_given`); columns by cases; the returned data as a change of all parameters under their labels (`re_system`), under which validity and labels are kept; distinct labels by their first words (elements) and last words (roles); the full claim is refuted by a CHP with two varying efficiencies |
| C75 bars, arrangement, heat maps | with_matplotlib (bar mode), reshape_to_2d, heat_map_data_from_df | induction over columns (each bar starts at the sum of the ones before); entry-wise law for the arrangement; heat map: calendar steps defined by intervals, mean over a partition of the data, filling as an inductive relation |
| C76 areas | with_plotly (area mode) | every trace shows a column and vice versa; exactly once `_refuted` by a column of zeros |
| C77 idle equipment | the whole builder, through the plans of C57 | the plan with all variables of the new component (and of its new buses) set to zero obeys the rules of the extended system; labels are told apart by `well_named`; `_refuted` for optional investments forced by a relative minimum |
| C78 same data | the whole builder, through the plans of C57 | obeying the rules of a plan (`obeys`) depends on the data only through its value at every step and the length of every step; both problems are equivalent to their rules |
| C79 time axis and chosen steps | the same, with C70 for acceptance | shifting and cutting are instances of mapping all parameters (`remapped`); names, validity and sense are shown to be kept, then C78; `_refuted` for charge limits that change over time |
| C80 description of the problem | `Infos.v`: sizes, listings as nested dicts, printed lines as records; against the pyomo model | the tree of models is traversed (`shaped`, `tidy`): labels differ, no sub-model is called "_self", variables are time series iff longer than 1; listings flatten to the tree. REFUTED for a flow labelled OnOff |
| C81 labels are only names | `rename_system` relabels every component, flow, bus and effect; `quantity_names` pairs the old and new name of every quantity of a plan | the rules of PlanSpec.v are transferred between two systems linked by a pairing of names (symmetric relation `linked`); C57 turns rules into solutions; valid data stay valid, so C70 gives acceptance. REFUTED for "Tank" and "Tank_initial" |
| C82 saved calculations survive other saves and crashes | Files.v: JSON text as a list of pieces with a writer and a left-to-right reader; the disk; a save as a list of file steps (file emptied, piece appended, exception), the loader; `stops`: any point at which a run may end, also within a piece | writer and reader are inverse (induction over values); a text of an object that breaks off has an open bracket, so it cannot be read; file names of different calculations differ (their last ten characters); induction over the history. REFUTED for a name used again: results of one save and data of another |
| C83 parts with nothing in common can be optimised separately | PropsParts.v, on top of the rules of C57: `part` (the system with some of its components), `separate`, `joins` | the rules of components and buses hold for the whole exactly if they hold for both parts; totals of effects that pass on to others are the only solution of a triangular system (order of the effects), so they add; optimum by exchange. With a limit on an effect it is false (C83_limits_matter) |
| C84 presolve figures are those written in the solver's log | SolverLog.v: the three regular expressions as lists of pieces, leftmost search, `parse_infos`; PropsSolverLog.v: `numeral`, `gurobi_text`, `cbc_rows_text`, `cbc_integers_text` | the matcher accepts exactly the instances of a pattern (groups end at non-digits, so greedy matching needs no backtracking); induction on the text gives the first instance; no instance iff nothing found |
| C85 the units in which effects are counted are free | PropsUnits.v: `in_units` rewrites every effect amount of the data (values of flows, on/off rules and investments, segments, penalties, limits, shares between effects), `converted` says what becomes of a plan | each rule of PlanSpec.v holds for the converted plan in the rewritten system exactly if it held before (factors cancel); with C57 solutions correspond both ways, the objective gains the factor of the objective effect; with C70 the rewritten system is accepted |
| C86 solutions with the same decisions can be mixed | PropsMix.v: `blend` (weighted mean of two assignments), `same_decisions`, `no_decisions` | every rule of PlanSpec.v is kept by the mixture (equations are linear, limits are convex, everything else is fixed by the decisions); C57 turns the mixture into a solution and C21 gives its objective; two different solutions of the first example system with the same decisions, and a system without decisions |
| C87 what the documentation of a flow system shows | Compact.v (get_compact_representation, infos of flows, components and systems, to_json before writing), PropsCompact.v: `rounded`, `is_median`, `tells`, `shows`, `chapter` | induction over values (C40 gives the types after conversion); rounding half to even is monotone and close; sorting and counting for the median; a sorted list with distinct keys is unique, hence the order of adding is invisible |
| C88 a segmented calculation is never better than the full one | PropsSegWorse.v: `untied` (nothing reaches beyond a step but stored energy and switching), `full_overlaps`, `clearly_on`, `result_cost` | laws of every step of the combined result (C63), its switching (C63) and storage balance (C34), limits of effects per step (C22) and of storages at the end (C03, C04) give the rules of a plan (C57); totals are filled in under their own names; refuted in general: a quota counts anew in every segment |
| C89 what an operation plot shows | `PlotOps.v` models `plot_operation`, `plot_storage`, `with_plotly` and `with_matplotlib` on top of `Tables.v` and `Plotting.v` | Proved by composing C66 (the table), C75/C76 (how it is drawn: because of the threshold no column is drawn twice) and C01 (balance). REFUTED for every documented mode: Matplotlib refuses areas, the default mode (`C89_refuted`) |
| C90 prices | `PropsPrices.v`: `repriced` replaces the effects per flow hour of every flow | All rules for parts of a plan are shown not to mention prices (`p_parts`), the costs of a step differ by `extra_at`, and a plan of one system becomes a plan of the other by moving the totals of the effect that is minimised (`shifted`), used in both directions. `C57` and `plan_completes` link plans and solutions. The inequalities for optimal solutions follow by comparing each optimum with the other one's plan. Refuted without the condition on limits by a system with a least amount of costs. |
| C91 segments without loss | `PropsSegBest.v`: `memoryless` says that nothing connects two steps | A solution of the whole horizon is cut into windows (`window_laws`, the converse of C63's `part_laws`); beyond the steps a segment is responsible for, its own solution is pasted in, so that overlaps do not matter. Laws of single steps give a plan (`steps_plan`) and so a solution of the segment, which cannot be cheaper than the optimum found. Costs are sums over steps (`plan_by_step`), added up segment by segment (`pieces_le`). Sums of investments that effects pass on in circles are covered by `no_gain`. The other direction is C88's plan. |
| C92 solving | `Solving.v`, `PropsSolving.v`: solver objects and calculations of one program, changed by `Model` and `Solve` calls; pyomo's answer is an argument of each call | Invariant `agrees`: the state is what simple functions of the history say (`program_of`, `folder_of`, `solved_with`), and settings never change. The figures of a solver object are those of its last answer, whichever calculation it was for. |
| C93 optimum | `Attain.v`: Fourier-Motzkin elimination over the rationals, for any ordered list of unknowns | a system of linear rows has a solution iff the system without one unknown has; so the values of an objective are cut out by finitely many bounds and the smallest is attained; binary entries by trying all. `PropsOptimum.v`: every quantity of a plan is bounded (closure of bounded quantities under sums and products; effects by strong induction along `in_order`), penalties are not negative, so the objective is bounded below. `C93_circle`, `C93_paid`: a direction in which one can go on for ever, checked by computation, shows that both conditions are needed |
| C94 best cost | `PropsBest.v`: `least` (PropsParts.v) | exists by C93; the comparisons carry solutions over by C72, C77, C88 and C90. In between two price lists: the best plan there is possible at both ends, and its cost is the mean of its costs there |
| C95 drawing of the network | `Draw.v` models plotting.visualize_network (pyvis: a node is added once, an arrow needs both ends; whether it is installed and whether a file can be written are arguments) | `PropsDraw.v` gives the result of every call and what the drawing shows. Refuted: the network is returned only if it is neither saved nor shown, and with path=False it is saved all the same if shown |
| C96 between two demands or limits | `PropsBetween.v`: `limited L fs` is the system with other limits, `between` says that a third set of limits is nowhere stricter than the mean | blends of plans obey the limits in between, so the best cost is convex in demands and caps. A witness shows that on/off decisions break it |
| C97 log messages | `LogOut.v` models config.py 146-258 and the part of Python's logging it relies on (a logger and its handlers pass on records of sufficient level) | `PropsLogOut.v`: invariant over histories of calls, induction on texts. Left out: exceptions attached to records, handlers of the root logger, rendering by rich, non-ASCII ends of lines |
| C98 units of energy | `PropsEnergy.v`: conversion of a system and of the configuration | the rules of a plan (C57) hold in one unit exactly if they hold in the other; with the constants left as they are the claim is refuted by a small plant |
| C99 finer time grid | `PropsFiner.v`: `split_steps k` divides every step into k equal ones (all arrays repeated entry by entry, extra last stamp kept) | a plan of the coarse system is carried out on the fine grid: rates, on/off states and sizes held over the parts, charges interpolated; the rules of a plan (C57) are checked one by one. Refuted for storages with losses (`C99_refuted`) and for those that end as they began (`C99_cycle_refuted`) |
| C100 report on a clustering | `ClusterReport.v`: `cluster_texts`, `describe_clusters` (with what is left in tsam's dictionary), `plot_aggregation`, `colour_range`, `mesh`, `cells` | `PropsClusterReport.v`: the texts can be read back (decimal numbers contain no dots), so every step has exactly one entry; a second report with extreme periods fails (`C100_again_refuted`); cells, ticks and ranges position by position |
| C101 finer grid, nothing switched | `PropsCoarser.v`: `over k` sums over the fine steps of a step, `unswitched`, `evened_out`; the systems of C99 | a plan of the fine system is evened out: rates and excesses become means, charges are read at the borders of steps, costs are added up; the rules of a plan (C57) are checked one by one, and with C99 the least costs are equal. Refuted for on/off (`C101_refuted`) |
| C102 directions of a transmission | `Checks.v`: `transmission_check`, the check that is never made | `PropsChecks.v`: the check accepts exactly what fits (`C102_check`); then both directions carry from side to side and the second one is free, by the rules of plans (C57). Refuted without the check by three systems that are accepted |
| C103 names of flows | `PropsNames.v`: `element_init` (labels are only complained about), `Tree.v`: `label_is_valid`; the names come from the model of building | The flow rates of all flows are among the declared variables, whose names are distinct in an accepted system (C27), hence `C103_distinct`; with proper labels the separator can be found in the name (`C103_labels_partial`). Refuted: reserved labels are accepted, and then distinct labels can give one name |
| C104 size of an element | `ElementSize.v`: `em_all_equations`, `flat_constraints`, `overview_of_model_size`; `Structure.v`: `em_all_variables`, `em_all_inequations` | `PropsElementSize.v`: induction over the tree of models; the labels are distinct in an accepted system (C27), so no KeyError. Refuted: AttributeError for every bus and every component with flows, inequations left out of the listing |
| C105 what is shown after solving | `SolveLog.v`: the messages at the end of `solve` as data, the list of investments sorted by size | `PropsSolveLog.v`: record `told`; from the main results (C67), facts on merged dicts and the sorting |
| C106 which flows can be made | `FlowInit.v`: the constructor of a flow with its checks and the warning that fails | `PropsFlowInit.v`: comparison of numbers and arrays step by step; refuted for TimeSeriesData as limits and for a profile without a size, proved otherwise |
| C53 rerun | SegmentedCalculation called twice | `_refuted` |

## Refuted statements

Where the code does not do what the property says, the full statement is a definition `Cxx_full : Prop` (or is spelled out in the
theorem), `Cxx_..._refuted` proves its negation by a concrete system, and a theorem with suffix `_partial` proves it under the
condition that is missing. The conditions are given in the note of each claim in MANIFEST.json.

## Trusted base

* The Coq 8.16.1 kernel (including its virtual machine: examples are evaluated with `vm_compute`).
* Axioms: `Print Assumptions` prints "Closed under the global context" under every theorem of the Props files. The modules loaded
  from the standard library contain the module-type constants `Coq.ssr.ssrunder.Under_rel.{Under_rel, Under_rel_from_rel, Under_relE,
  Over_rel, over_rel, over_rel_done, under_rel_done}`; no theorem depends on them.
* The reading of the Python code recorded in the comments of the model files, and the idealisations of this document.
* External behaviour taken as argument: the solver's answer (any assignment, or none), the iteration order of Python sets (any
  permutation), tsam's clustering (any cluster order and data), parsing of date strings, the calendar (first second of a month).
* tools/feasible_point.py (z3) was used to *find* example points; they are checked inside Coq. The tools that write
  properties.jsonl and MANIFEST.json and that run mutants are not part of any proof.

## Simplifications

Each is repeated in the comment of the definition concerned.

* Plots of operation: a figure is the list of drawn series with their x-coordinates, kinds and colours; titles, layout, legends, showing and saving are left out. A named colour scale is a function from position and number of columns to a colour. For a heat map the figure is the table handed to `heat_map_data_from_df`, whose work is modelled on its own (`heat_map`, C75/C76).
* Collect: the flows' series come in the order of the components (the set order only permutes columns); the aggregated column is
  written into the places of the chosen steps of the original array, which presumes that no step is chosen twice; a constant
  aggregated column may count as a number; conversion factors of flows of other components and values for unregistered effects
  have no name.
* Numbers: exact rationals; NaN and infinite data not modelled; numpy's `inf` on a COP of 1 given as an array is an error.
* Warnings and log messages (`check_bounds`, invalid labels, plausibility warnings) are left out.
* A row without any summand is refused at translation (pyomo refuses a rule that returns True or False). A summand with factor zero
  counts as a summand: pyomo is taken to keep `0 * variable` as an expression.
* Index lists are lists of natural numbers; negative indices are not modelled.
* A Flow object used twice is a KeyError up front; flows named in `prevent_simultaneous_flows` that do not belong to the component are
  an AttributeError. OnOffParameters objects and effect dictionaries shared between elements are separate copies in the builder
  (SharedDicts models the sharing).
* Errors while transforming parameters that no model reads are not modelled.
* The data of a TimeSeries replaced by aggregated data is modelled in Series and Collect; the builder reads one array per parameter.
* Plotting: tables are lists of named columns of equal length with rational values and without NaN; strftime is an argument `name`; time stamps are whole minutes. In area mode the dashed lines come in the order of the columns (in the code a set decides), and column names are distinct. The arithmetic of pandas `resample` is modelled by its documented meaning (buckets from first to last datum, weeks ending on Sunday). Drawing itself is not modelled.
* Saving: JSON text encoding, NaN/inf, non-string keys, `np.bool_`, n-dimensional and object arrays are left out; the ISO text of a
  time stamp is an abstract value read back by `fromisoformat`; overrides of `infos()` are not modelled.
* After a successful solve pyomo knows a value for every variable. Result tables are computed from the results held in memory.
* Segmented runs: the overlap is a natural number; a rerun after a failed run is not modelled; original start values of storages are
  looked up by label (labels are unique in a FlowSystem).
* Files (Files.v): the characters of one number, text or line of JSON are one piece; a stop within it leaves another piece. Each file is
  closed before the next is opened, so what is still buffered when the process is killed belongs to the last file. A power failure that
  reorders writes, names with slashes and several spellings of one folder are not modelled. yaml.safe_load is an argument.
* Documents (Compact.v): numbers are exact, so rounding is to nearest with halves to even on the exact number; the square root and numpy's treatment of arrays of truth values are arguments; `str.upper` is modelled for the letters a to z; arrays have one dimension.
* Solver logs (SolverLog.v) are ASCII texts; `\d` of Python's `re` also matches other decimal digits. What `gurobi_logtools` makes of a log is an argument in Solving.v.
* Solving (Solving.v): pyomo's answer (values, status, condition, message, bound, content of the log) is an argument; warnings about the log file are not counted; numbers in `repr(solver)` are not printed; the default values of the constructors are not modelled.
* Clustering reports (ClusterReport.v): the dictionaries that go into the text are modelled, not its layout; labels of clusters are numbers; figures are reduced to lines (name, values, colour, dashes), cells, ticks and the range of colours; colours are an argument.

## Not modelled

The rest of plotting.py (layout, legends, line mode, networks, colour maps), file I/O, logging, the solvers themselves, the tsam clustering itself, the cvxpy back-end (does not exist in the code), numerical
tolerances of solvers, the other repr/describe functions, the formatting of numbers in printed lines, the drawing of the network (its nodes and edges are modelled, the texts under 'infos' are not), the texts of `infos`, examples and tests of the repository.
