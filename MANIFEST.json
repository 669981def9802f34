{
 "claims": [
  {
   "property": "C01",
   "status": "proved",
   "theorems": [
    "C01_broadcast_lookup"
   ],
   "note": "Numbers, nested lists, arrays, frames and {'value': ...} dictionaries."
  },
  {
   "property": "C02",
   "status": "proved",
   "theorems": [
    "C02_flatten_agrees"
   ],
   "note": ""
  },
  {
   "property": "C03",
   "status": "proved",
   "theorems": [
    "C03_only_documented_shapes",
    "C03_foreign_value_refuted"
   ],
   "note": "Exact iff for every argument that is not an already built value. The second theorem shows why the exception is needed: such values are accepted unchecked."
  },
  {
   "property": "C04",
   "status": "proved",
   "theorems": [
    "C04_out_of_range_lookup",
    "C04_negative_index_refuted"
   ],
   "note": "Negative indices, outside the statement, are not treated uniformly (second theorem)."
  },
  {
   "property": "C05",
   "status": "partial",
   "theorems": [
    "C05_negative_data_partial",
    "C05_negative_data_refuted",
    "C05_efficiency_refuted",
    "C05_exact"
   ],
   "note": "False for arrays: only arrays with all entries negative are refused. Proved: numbers, and at least one entry of each array, are in range. Exactly: a call proper in every other respect is refused if and only if a quantity is negative in all its entries or an efficiency above 1 in all of them."
  },
  {
   "property": "C06",
   "status": "proved",
   "theorems": [
    "C06_well_formed_studies"
   ],
   "note": "Invariant over every program, including refused calls."
  },
  {
   "property": "C07",
   "status": "partial",
   "theorems": [
    "C07_refused_call_changes_nothing_partial",
    "C07_refused_source_partial",
    "C07_refused_call_changes_nothing_refuted",
    "C07_half_set_destination_refuted",
    "C07_exact",
    "C07_what_is_spoiled"
   ],
   "note": "Proved for every call but converter calls, and for to_converter on an existing converter; refuted for converter calls. Exactly: what every refused call leaves is told; afterwards the same calls are accepted as before, except for setting the destination of a converter whose destination the refused call has set halfway."
  },
  {
   "property": "C08",
   "status": "proved",
   "theorems": [
    "C08_accepted_call_adds_element",
    "C08_accepted_link",
    "C08_accepted_converter"
   ],
   "note": ""
  },
  {
   "property": "C09",
   "status": "partial",
   "theorems": [
    "C09_node_selector_keeps_node_partial",
    "C09_node_selector_keeps_node_refuted",
    "C09_exact",
    "C09_sharing"
   ],
   "note": "False when .node is called again through a selector sharing the dictionary; proved for all other interleavings. Exactly: the element lands on the node named in the last .node call through a selector sharing the dictionary; .network and .converter start a dictionary of their own, every other selector shares that of its receiver."
  },
  {
   "property": "C10",
   "status": "partial",
   "theorems": [
    "C10_node_selectors_usable",
    "C10_selectors_usable_partial",
    "C10_selectors_usable_refuted",
    "C10_exact"
   ],
   "note": "Node selectors: proved. Network selectors: proved except for the one returned by .converter(), for which it is refuted: exactly on these .node and .link raise KeyError at any later time."
  },
  {
   "property": "C100",
   "status": "partial",
   "theorems": [
    "C100_consumptions",
    "C100_productions",
    "C100_links",
    "C100_storages_partial",
    "C100_storages_refuted",
    "C100_destinations_partial",
    "C100_sources_partial",
    "C100_sources_refuted"
   ],
   "note": "Consumptions, productions and links: no condition beyond a query with all five axes and well-formed slices. Storages, destinations and sources of converters under the conditions named; without them the claim is false: C100_storages_refuted (two storages, the first is missing) and C100_sources_refuted (two sources and two scenarios). C100_sources_partial also asks for plain names of sources (C27)."
  },
  {
   "property": "C101",
   "status": "proved",
   "theorems": [
    "C101_same_dispatches",
    "C101_same_optimum",
    "C101_debt_refuted"
   ],
   "note": "The condition on signs is needed: C101_debt_refuted gives two accepted studies, one with a production whose series is negative at one time, which has no dispatch, and the coarser one, which has some."
  },
  {
   "property": "C102",
   "status": "proved",
   "theorems": [
    "C102_same_dispatches",
    "C102_same_optimum",
    "C102_spring_refuted",
    "C102_calls",
    "C102_telling_nothing"
   ],
   "note": "The outflow of an added storage must be zero too: C102_spring_refuted gives a study where a storage that can hold nothing, holds nothing and takes nothing, declared after another in its node, brings the cost from 1000 to 0, because only the first storage of a node gets a constraint."
  },
  {
   "property": "C103",
   "status": "proved",
   "theorems": [
    "C103_at_least",
    "C103_at_most",
    "C103_window",
    "C103_gift_refuted",
    "C103_burst_refuted"
   ],
   "note": "Each hypothesis is needed. C103_gift_refuted: the sign of prices is not checked, and with a negative later price the whole study costs less than nothing and less than its first time. C103_burst_refuted: a content that does not fit must leave over a link that is dearer than the load, so the study costs 50 where serving nothing would cost 10."
  },
  {
   "property": "C104",
   "status": "proved",
   "theorems": [
    "C104_stages_never_cheaper",
    "C104_the_rest_is_optimal",
    "C104_stages_refuted"
   ],
   "note": "Only the first storage of each node has to start where it stopped, since the others get no constraint (C18). C104_stages_refuted: the stages are not as cheap as the whole; each empties its storage as if nothing came after (300 instead of 120)."
  },
  {
   "property": "C105",
   "status": "partial",
   "theorems": [
    "C105_kept_partial",
    "C105_copied",
    "C105_exact",
    "C105_held",
    "C105_late",
    "C105_as_values",
    "C105_kept_refuted",
    "C105_arrays"
   ],
   "note": "Refuted for numpy arrays, which are kept as the object of the caller: a production accepted as positive reads as negative after a write. Told exactly: two contents of the memory give the same study if and only if they agree on the arrays the study holds, and these were all passed in declarations; what is copied (numbers, lists, Series, DataFrames) never changes; as long as the same declarations are accepted, writing later is as having passed the new numbers. C105_as_values: without writes the model with references is the model with values of the other properties."
  },
  {
   "property": "C106",
   "status": "partial",
   "theorems": [
    "C106_elements",
    "C106_only",
    "C106_converters_partial",
    "C106_storages_partial",
    "C106_stack_partial",
    "C106_matrix_partial",
    "C106_map",
    "C106_refuted"
   ],
   "note": "Full for consumptions, productions and links: each view of what exists is drawn with its numbers (C106_elements), and whatever is drawn shows them or, for a monotone of something missing, no point (C106_only). Maps are right when each node has coordinates; the matrix is drawn exactly when capacity is left somewhere and missing elsewhere. Refuted for a source of a converter with two sources: one curve for two scenarios. Missing therefore: sources of converters with several sources and scenarios, gaussians of converters by scenario, storages other than the last, stacks of nodes with such elements."
  },
  {
   "property": "C107",
   "status": "proved",
   "theorems": [
    "C107_same_dispatches",
    "C107_same_optimum",
    "C107_narrow_refuted"
   ],
   "note": "Dispatches are carried over: what is moved does at the other node what it did before, and the two links carry the difference one way only. That this fits follows from the balance of the node it leaves. C107_narrow_refuted shows that links which are free but narrow do not do."
  },
  {
   "property": "C108",
   "status": "proved",
   "theorems": [
    "C108_solved_places",
    "C108_read_jobs",
    "C108_twice_refuted",
    "C108_read_solved"
   ],
   "note": "C108_solved_places is about whole solves of any study. For a study read from a text whose dictionaries have each key once, C108_read_jobs says when the jobs of the workers succeed and C108_read_solved that the whole solve then succeeds and the result carries the answers of the solver. C108_twice_refuted shows what is checked nowhere: a text with two links from a node to the same node is read and solved, both links carry energy away, one alone brings it, so that the best dispatch is not balanced. The building methods refuse such a second link."
  },
  {
   "property": "C109",
   "status": "proved",
   "theorems": [
    "C109_program",
    "C109_optimal",
    "C109_twice_refuted"
   ],
   "note": "The study's dictionaries have each key once. Places and ratios are not assumed in C109_optimal, a solve without an error implies them (C108). C109_twice_refuted: with two links between the same nodes the optimum does not follow the laws. The laws (law_ok) are those of C15_program_exact."
  },
  {
   "property": "C11",
   "status": "partial",
   "theorems": [
    "C11_study_json_round_trip_partial",
    "C11_study_json_round_trip_refuted",
    "C11_incomplete_converter_refuted",
    "C11_exact",
    "C11_read_is_complete"
   ],
   "note": "Exact for every study built through the API from numbers, lists, arrays or frames (C11_exact): it comes back from its text if and only if every converter has a destination and its source names do not interfere with the separator '::'. False otherwise (two witnesses); whatever tree is read, the study has complete converters with such names."
  },
  {
   "property": "C110",
   "status": "proved",
   "theorems": [
    "C110_cheapest_or_nothing",
    "C110_solved_at_best",
    "C110_result_tells",
    "C110_each_scenario",
    "C110_same_prices",
    "C110_solvable_refuted"
   ],
   "note": "Extends C81, C82 and C88 from the studies the API builds to those that can be read. The study's dictionaries have each key once. C110_solvable_refuted: a text with a negative production is read and solved without an error although no dispatch follows the laws."
  },
  {
   "property": "C111",
   "status": "proved",
   "theorems": [
    "C111_costs",
    "C111_other_kinds_refused",
    "C111_kinds_exact"
   ],
   "note": "The kinds of storages and converters are fixed in the code and not asked for. The stacked view, which also takes kinds, is in C112."
  },
  {
   "property": "C112",
   "status": "proved",
   "theorems": [
    "C112_production_kind_refused",
    "C112_consumption_kind_refused",
    "C112_kind_not_looked_at",
    "C112_kinds_exact",
    "C112_kinds_of_right_views"
   ],
   "note": "The last theorem says that the view is drawn for some kinds wherever C65 says what it shows. That it is drawn at a node that feeds a converter with several sources, with several scenarios, is not proved."
  },
  {
   "property": "C12",
   "status": "partial",
   "theorems": [
    "C12_keys_recovered_iff_plain",
    "C12_no_collision_partial",
    "C12_keys_recovered_refuted",
    "C12_only_plain_read"
   ],
   "note": "Exact characterisation of the pairs that survive; false for the others. Whatever text is read as a pair of names, the names are plain."
  },
  {
   "property": "C13",
   "status": "partial",
   "theorems": [
    "C13_result_json_round_trip_partial",
    "C13_solved_round_trip_partial",
    "C13_result_json_round_trip_refuted",
    "C13_exact",
    "C13_solved_exact",
    "C13_read_is_plain"
   ],
   "note": "Exact for results whose arrays have no empty axis, and for every result of a solve of an API study: it comes back from its text if and only if the source names do not interfere with '::'. False otherwise."
  },
  {
   "property": "C14",
   "status": "partial",
   "theorems": [
    "C14_study_tree_unchanged",
    "C14_result_tree_consumed",
    "C14_decoding_refuted"
   ],
   "note": "Proved for Study. False for Result: every tree with a node becomes unreadable."
  },
  {
   "property": "C15",
   "status": "partial",
   "theorems": [
    "C15_program_is_documented_partial",
    "C15_objective_is_documented",
    "C15_program_is_documented_refuted_by_self_link",
    "C15_program_is_documented_refuted_by_second_storage",
    "C15_program_is_documented_refuted_by_negative_ratio",
    "C15_program_exact",
    "C15_when_documented",
    "C15_when_accepted"
   ],
   "note": "Exact for every study (C15_program_exact): the program is the documented model except that energy on a link from a node to itself is counted once more, only the first storage of a node evolves, and a source flow is limited by maximum over ratio. Hence the documented model for studies without such links, with at most one storage per node and positive ratios; false in each of the three other cases."
  },
  {
   "property": "C16",
   "status": "partial",
   "theorems": [
    "C16_nodal_balance_with_loops",
    "C16_nodal_balance_partial",
    "C16_nodal_balance_refuted",
    "C16_nodal_balance_refuted_by_names",
    "C16_any_names",
    "C16_exact"
   ],
   "note": "Exact law proved for every study with plain source names: links from a node to itself count once more as imports. For all names the law holds with what the solver took for converters (C16_any_names), so the balance of a node is right exactly where the result tells that and no energy loops (C16_exact). Refuted with a loop, and with source names that collide."
  },
  {
   "property": "C17",
   "status": "proved",
   "theorems": [
    "C17_capacities_respected"
   ],
   "note": ""
  },
  {
   "property": "C18",
   "status": "partial",
   "theorems": [
    "C18_first_storage_evolves",
    "C18_storage_evolution_partial",
    "C18_storage_evolution_refuted",
    "C18_exact",
    "C18_later_optimal"
   ],
   "note": "Proved for the first storage of every node; refuted for the second one. Exactly: a storage that can hold something evolves in the results of all answers that meet the program if and only if it is the first of its node (C18_exact); in every optimum a later one is told to hold nothing where holding costs, and all it can where that is paid for (C18_later_optimal)."
  },
  {
   "property": "C19",
   "status": "partial",
   "theorems": [
    "C19_converter_law_partial",
    "C19_converter_law_refuted",
    "C19_any_names",
    "C19_exact"
   ],
   "note": "Proved for plain source names; refuted for source names whose joined text collides. Exact for all names: the law holds where nothing is delivered, or the names are plain and the last source with the same text has the same ratio (C19_exact)."
  },
  {
   "property": "C20",
   "status": "partial",
   "theorems": [
    "C20_cost_optimal_partial",
    "C20_minimum_attained_partial",
    "C20_cost_optimal_refuted",
    "C20_cost_optimal_exact",
    "C20_never_beaten"
   ],
   "note": "Against the documented model: proved for studies without link from a node to itself, refuted with one. Against the exact laws of the program (C15): an answer is optimal iff its result follows them and is cheapest, every study with plain source names."
  },
  {
   "property": "C21",
   "status": "partial",
   "theorems": [
    "C21_solution_exists_partial",
    "C21_solution_exists_refuted",
    "C21_solution_exists_refuted_by_negative_ratio",
    "C21_exact_partial",
    "C21_exact_prices",
    "C21_prices_refuse",
    "C21_enough",
    "C21_exact_apart",
    "C21_fits_manage"
   ],
   "note": "Proved for non-negative data, positive ratios and initial contents that fit in the capacities; refuted when the last two fail. C21_exact_partial: as soon as the first storage of each node fits (the only one the program lets evolve), a solution exists exactly when no bound is negative, whatever the other storages, signs and ratios. When it does not fit: C21_exact_apart gives the exact condition step by step for studies without links and converters (C21_enough: it is enough for all), and C21_exact_prices the exact condition for every study by prices of energy that would refuse it. What is missing is only what is false."
  },
  {
   "property": "C22",
   "status": "proved",
   "theorems": [
    "C22_merit_order"
   ],
   "note": ""
  },
  {
   "property": "C23",
   "status": "proved",
   "theorems": [
    "C23_no_needless_shedding"
   ],
   "note": ""
  },
  {
   "property": "C24",
   "status": "proved",
   "theorems": [
    "C24_costliest_load_first"
   ],
   "note": ""
  },
  {
   "property": "C25",
   "status": "proved",
   "theorems": [
    "C25_no_loop_flows"
   ],
   "note": ""
  },
  {
   "property": "C26",
   "status": "proved",
   "theorems": [
    "C26_scenario_independence"
   ],
   "note": "For a solver that answers the same program alike."
  },
  {
   "property": "C27",
   "status": "partial",
   "theorems": [
    "C27_result_mirrors_study_partial",
    "C27_result_mirrors_study_any_names",
    "C27_any_completion_order",
    "C27_result_mirrors_study_refuted",
    "C27_exact",
    "C27_plain_exact"
   ],
   "note": "Structure and shapes for every study; all entries but source flows for every study; source flows exactly: a source with plain names holds the flow of the last source with its text, any other holds 0 (C27_exact). Every solve tells the flows of the solver exactly when all source names are plain (C27_plain_exact); refuted otherwise."
  },
  {
   "property": "C28",
   "status": "partial",
   "theorems": [
    "C28_network_energy_with_loops",
    "C28_network_energy_partial",
    "C28_network_energy_refuted",
    "C28_exact"
   ],
   "note": "Exact law with links from a node to itself; conservation proved without them, refuted with one. C28_exact: a network conserves energy if and only if no energy goes over links from a node to itself."
  },
  {
   "property": "C29",
   "status": "partial",
   "theorems": [
    "C29_solving_any_names_partial",
    "C29_solving_without_converter",
    "C29_solving_any_names_refuted",
    "C29_exact",
    "C29_solved_iff"
   ],
   "note": "Exact: a study of the API is answered with a result exactly when its converters can be used and the text of every source is that of a source with plain names; otherwise KeyError (C29_exact, C29_solved_iff). So proved for plain source names and for studies without converter, refuted for others."
  },
  {
   "property": "C30",
   "status": "proved",
   "theorems": [
    "C30_remote_protocol",
    "C30_remote_returns",
    "C30_optimizer"
   ],
   "note": "Safety for every server and every execution, finished or not: one POST of the study, then GETs of the given job only, every answer before the last is QUEUED or COMPUTING, a returned result is decoded from the last answer, which is neither. Liveness: once the job ends, its result is returned however many polling answers came before. A malformed answer (no job, status, progress or result field) ends with a KeyError, never with a result."
  },
  {
   "property": "C31",
   "status": "partial",
   "theorems": [
    "C31_remote_failures_reported_partial",
    "C31_progress_needed",
    "C31_remote_failures_reported_refuted",
    "C31_exact"
   ],
   "note": "Every HTTP 403/404/500 answer ends the execution at once with ValueError/ValueError/IOError; after ERROR nothing is sent and no result is returned. C31_exact: after an ERROR whose code is not refused, ServerError with the text of the message is raised exactly when there is a message and, if it is the first answer, job and progress; otherwise KeyError, which refutes the full statement (the code reads job and progress before status). A queued answer without progress, or with one that is no number, ends the execution with KeyError or TypeError. A message that is not text is kept as no text."
  },
  {
   "property": "C32",
   "status": "partial",
   "theorems": [
    "C32_remote_equals_local_partial",
    "C32_remote_equals_local_refuted",
    "C32_exact",
    "C32_never_local",
    "C32_returned_is_plain"
   ],
   "note": "For every study built through the API, every solver, worker schedule and number of polling answers, exactly when converter source names are unambiguous as JSON keys (plain_sources). For other names no server whatever can make solve_remote return the local result (C32_never_local); refuted by a study whose two sources collapse into one on the server."
  },
  {
   "property": "C33",
   "status": "proved",
   "theorems": [
    "C33_tables_faithful"
   ],
   "note": "For every study built through the API, every result of the same structure and dimensions, and every initial content of the allocated columns."
  },
  {
   "property": "C34",
   "status": "partial",
   "theorems": [
    "C34_storage_table_partial",
    "C34_storage_table_exact",
    "C34_storage_table_refuted"
   ],
   "note": "Proved for studies with at most one storage; refuted with two, where the block number is never increased and all storages overwrite the same rows. What the table holds in general is proved exactly: the rows of the last storage, then rows never written."
  },
  {
   "property": "C35",
   "status": "partial",
   "theorems": [
    "C35_dest_table_partial",
    "C35_src_table_partial",
    "C35_dest_table_exact",
    "C35_src_table_exact",
    "C35_src_faithful_iff",
    "C35_tables_refuted",
    "C35_three_sources_refuted",
    "C35_no_source_refuted"
   ],
   "note": "Destination side proved when every converter has a source (surplus rows without scenario and time follow if one has several); source side proved when every converter has at most one source. Refuted for a converter with two sources (surplus rows, wrong scenarios), three sources or none (ValueError). What both tables hold, and when building them fails, is proved exactly; the source table is right if and only if there is one scenario or no converter has two sources."
  },
  {
   "property": "C36",
   "status": "partial",
   "theorems": [
    "C36_query_answers_partial",
    "C36_query_answers_sound",
    "C36_axes",
    "C36_fluent_query",
    "C36_tables_have_unique_keys",
    "C36_query_fully_specified",
    "C36_full_query_refuted",
    "C37_outcome"
   ],
   "note": "For every table with unique keys and every selection by values, lists, tuples, closed slices or nothing: a query that returns data returns one line per matching row, values unchanged, in the order of the axes. C37_outcome is exact: IndexError if and only if the first argument selects nothing or a single existing cell is asked for, else the data. The tables of the analyzer have unique keys, and the fluent interface runs this filter. Refuted when all five axes have one value: IndexError although the row exists."
  },
  {
   "property": "C37",
   "status": "partial",
   "theorems": [
    "C37_axis_order_partial",
    "C37_axis_order_refuted",
    "C37_outcome",
    "C37_exact"
   ],
   "note": "Same rows and values, or the same failure, for every permutation, when no argument selects nothing. Exactly: two orders agree if and only if both or none of them begin with an argument that selects nothing; a query fails if and only if it begins so or asks for a single existing cell, else its answer holds exactly the rows asked for. Refuted with an empty tuple: error if asked first, empty table otherwise."
  },
  {
   "property": "C38",
   "status": "partial",
   "theorems": [
    "C38_interleaved_queries_partial",
    "C38_second_completion",
    "C38_reuse_refuted",
    "C38_exact",
    "C38_clean_exact",
    "C38_data_exact"
   ],
   "note": "Proved for every interleaving of queries in which no selector is completed twice. Exactly, for every program: a call is answered for the indexes its selector was made for, all those asked through this selector before, and its own; it gives data if and only if these are five, and they are those of its own query if and only if nothing was asked before through the selectors of its query. Refuted for a selector completed twice: the second completion extends the list of the selector and returns another selector; proved to happen for every selector one axis before the end."
  },
  {
   "property": "C39",
   "status": "partial",
   "theorems": [
    "C39_slices_partial",
    "C39_open_slices",
    "C39_steps",
    "C39_open_slices_refuted"
   ],
   "note": "Proved for every slice with both ends, with any step. Refuted otherwise: every slice without start selects nothing and every slice without stop raises TypeError."
  },
  {
   "property": "C40",
   "status": "proved",
   "theorems": [
    "C40_balances"
   ],
   "note": "Model of result.py get_balance: the array equals, entry by entry, energy sent on the node's links minus energy received, for every study built through the fluent interface and every matching result; all nodes together cancel."
  },
  {
   "property": "C41",
   "status": "partial",
   "theorems": [
    "C41_costs_partial",
    "C41_objective_partial",
    "C41_costs_exact",
    "C41_costs_refuted"
   ],
   "note": "Costs of a node, of a network and of the study, and their sum over nodes and time equal to the solver's objective: proved for every study with at most one storage whose analyzer exists (C67), for every answer of the solver. With any number of storages, proved exactly for nodes and networks: only the last storage of the study is counted, and a node or network with storages but not that one gets ValueError. Refuted with two storages: the cost of the first is lost."
  },
  {
   "property": "C42",
   "status": "proved",
   "theorems": [
    "C42_remaining_capacity"
   ],
   "note": "Model of result.py get_rac: unused production minus unserved consumption of the network, per scenario and time."
  },
  {
   "property": "C43",
   "status": "partial",
   "theorems": [
    "C43_counts_partial",
    "C43_counts_refuted",
    "C43_exact"
   ],
   "note": "Counts are exact for a node, for a network with a non-empty name and for the study when no network has an empty name. A network named '' is refused with KeyError (truth test on the name): C43_counts_refuted. C43_exact tells for every question whether it is answered; every other is a KeyError."
  },
  {
   "property": "C44",
   "status": "partial",
   "theorems": [
    "C44_plug_arithmetic_partial",
    "C44_shared_list_refuted",
    "C44_exact",
    "C44_new_stage"
   ],
   "note": "For every heap and pair of plugs whose first inputs list is not the list object of the second's outputs. Exactly: false if and only if both plugs are restricted, share this list object, and some column passes by the second; then the sum also asks for the columns it passes on."
  },
  {
   "property": "C45",
   "status": "partial",
   "theorems": [
    "C45_accepted_runs_partial",
    "C45_library_stages",
    "C45_library_pipelines_partial",
    "C45_reuse_refuted",
    "C45_uneven_refuted",
    "C45_emptied_refuted"
   ],
   "note": "For every chain of stages accepted by +, each with its own lists of names, user stages honouring their contract (library stages are proved to), every frame with the asked columns in every scenario, every draw: no check finds a column missing, no KeyError, and the result has the promised columns. Refuted for stages linked elsewhere before, for frames whose scenarios differ, and for a stage without inputs behind one that removes all columns."
  },
  {
   "property": "C46",
   "status": "partial",
   "theorems": [
    "C46_constructor_partial",
    "C46_constructor_refuted",
    "C46_plus_exact",
    "C46_constructor_exact",
    "C46_same_exact"
   ],
   "note": "Pipeline([...]) accepts whatever + accepts, and exactly that for every list of stages in which no stage without contract stands between two with one. Refuted otherwise. For stages with lists of their own both are told exactly: + accepts iff every stage with a contract after the first such stage gets each column it asks for from an earlier stage, no stage in between asking for it; the constructor tests only stages directly after one with a contract; when they agree."
  },
  {
   "property": "C47",
   "status": "partial",
   "theorems": [
    "C47_linking_partial",
    "C47_free_partial",
    "C47_stage_refuted",
    "C47_pipeline_refuted",
    "C47_shared_list_refuted",
    "C47_exact"
   ],
   "note": "For every history of operations: stages keep their behaviour and inputs, and outputs of stages never used on the right of a link are unchanged. Refuted: linking extends the outputs list of the right stage, and pipeline + stage changes the pipeline itself. C47_exact tells for every operation exactly when everything there before is left as it was: a link of two stages, if it is refused or either is free or the right one asks for all that the left one promises; pipeline + stage, if it is refused; the constructor, if up to the first refused link each stage that asks for something asks for all that the last such stage before it promises; all other operations, always."
  },
  {
   "property": "C48",
   "status": "proved",
   "theorems": [
    "C48_clip",
    "C48_exchanged_bounds"
   ],
   "note": "For every frame and bounds; what pandas does with exchanged bounds is stated separately."
  },
  {
   "property": "C49",
   "status": "proved",
   "theorems": [
    "C49_rename"
   ],
   "note": "For every frame and mapping."
  },
  {
   "property": "C50",
   "status": "partial",
   "theorems": [
    "C50_drop_partial",
    "C50_call_partial",
    "C50_drop_refuted",
    "C50_exact"
   ],
   "note": "For every frame and list of names, exactly: a frame that has one of the names is returned without them, any other raises KeyError (C50_exact). So a call of Drop is right if and only if its list is not empty; refuted for Drop([]), which raises although the declared contract is met."
  },
  {
   "property": "C51",
   "status": "partial",
   "theorems": [
    "C51_repeat_partial",
    "C51_repeat_refuted",
    "C51_uneven_refuted",
    "C51_accepted",
    "C51_layout",
    "C51_exact"
   ],
   "note": "Proved for every frame whose columns are listed scenario by scenario with the same names, and these are exactly the layouts right for all data. For distinct labels: accepted exactly if every scenario has every name, else ValueError; where each column goes is told. Refuted for columns in another order (labels are exchanged) and for scenarios with different names (ValueError)."
  },
  {
   "property": "C52",
   "status": "partial",
   "theorems": [
    "C52_scenario",
    "C52_downtimes",
    "C52_fault_partial",
    "faulted_le",
    "faulted_same",
    "C52_rows_refuted",
    "C52_surplus_refuted",
    "C52_negative_downtime_refuted",
    "C52_slice",
    "C52_any_downtime",
    "C52_accepted",
    "C52_refused"
   ],
   "note": "Exact formula (quantity minus loss times number of drawn faults covering the time) for every legal draw; other columns and horizon unchanged. Per scenario without further hypotheses; on a whole frame for rows numbered from 0 and exactly the declared columns. Refuted for other row labels (values lost), surplus columns (error or lost), negative downtimes; for these the exact loss is given too (C52_any_downtime)."
  },
  {
   "property": "C53",
   "status": "partial",
   "theorems": [
    "C53_scenarios_partial",
    "C53_any_rows_partial",
    "C53_rows_refuted",
    "C53_rows_exact",
    "C53_input"
   ],
   "note": "For every frame and every focus stage: what comes back for a scenario is computed from that scenario alone, and row i is the row labelled i. With rows numbered from 0 and a stage returning its declared columns the result is exactly what it computed; these are exactly the row labels right for all data and stages. Refuted for other row labels."
  },
  {
   "property": "C54",
   "status": "partial",
   "theorems": [
    "C54_samples_partial",
    "C54_positions",
    "C54_returns",
    "C54_completion_order",
    "C54_distribution_partial",
    "C54_pipeline_data_partial",
    "C54_distribution_refuted",
    "C54_unnamed_refuted",
    "C54_timeline"
   ],
   "note": "Sampled rows are rows of the data and as many as asked, for every sampler, draw and distribution; the order of completion never matters; the distribution does not matter for samplers without memory. Refuted for generators with a state (handled together or apart gives other samples) and for a column named '' (sampled as if it were a scenario)."
  },
  {
   "property": "C55",
   "status": "partial",
   "theorems": [
    "C55_acceptance",
    "C55_sampling_partial",
    "C55_changed_refuted",
    "C55_reuse_refuted",
    "C55_uneven_refuted"
   ],
   "note": "Acceptance condition, recording and refusal proved for every pipeline and frame. Accepted sampling never misses a column under the conditions of C45. Refuted when the pipeline is extended after acceptance, when a stage was linked elsewhere before, and for data whose scenarios differ."
  },
  {
   "property": "C56",
   "status": "proved",
   "theorems": [
    "C56_caller_frame"
   ],
   "note": "For every frame heap, pipeline, draw and end of the run, exceptions included."
  },
  {
   "property": "C57",
   "status": "partial",
   "theorems": [
    "C57_candles_partial",
    "C57_only_last_storage_drawn",
    "C57_candles_refuted"
   ],
   "note": "Proved, for every feasible answer, for the last storage of the study when it is alone in its node, whatever the other storages, and provided the rows that nothing writes do not hold the name of a network (unwritten). For every other storage it is proved that candles raise KeyError and the monotone view is empty, whatever the answer: the table of the analyzer keeps the last storage only (C34)."
  },
  {
   "property": "C58",
   "status": "partial",
   "theorems": [
    "C58_map_partial",
    "C58_given_limit_refuted"
   ],
   "note": "For every study, result and network with a node: the circles are the balances, every line is the non-negative net flow in its direction, every link is drawn once, and the computed colour limit is the greatest balance. Refuted only for a limit given by the caller, which balances can exceed."
  },
  {
   "property": "C59",
   "status": "partial",
   "theorems": [
    "C59_stack_with_loops",
    "C59_stack_partial",
    "C59_stack_refuted",
    "C59_stack_refuted_by_storages",
    "C59_stack_refuted_by_sources",
    "C59_stack_any_storages_partial"
   ],
   "note": "For every feasible answer, any order of costs, at every node that feeds no converter with two sources (or one scenario). C59_stack_with_loops: when the storage of the node, if any, is the last of the study, the highest line is above the highest area by exactly the energy on links of the node to itself, so both are equal when no link loops. C59_stack_any_storages_partial: with any storages, the difference is this energy plus what the storages that are not shown give, less what they take. Refuted in the three cases: a self link, a second storage, a converter with two sources."
  },
  {
   "property": "C60",
   "status": "partial",
   "theorems": [
    "C60_matrix_partial",
    "C60_one_sign",
    "C60_matrix_refuted"
   ],
   "note": "The drawing succeeds exactly when the matrix has a positive and a negative value, and then every colour has the sign of its value and lies in [-1, 1]. Refuted: a matrix of one sign raises ValueError (np.max of an empty selection), as in the gas network of an adequate study."
  },
  {
   "property": "C61",
   "status": "proved",
   "theorems": [
    "C61_drawn_series",
    "C61_drawn_cells",
    "C61_monotone",
    "C61_monotone_of_timeline",
    "C61_converter_monotone_partial",
    "C61_storage_monotone_partial"
   ],
   "note": "The drawing function is proved for every series of numbers (for arrays with NaN, that no value is lost or added). The views of consumptions, productions and links are proved equal to the sorted curve of the timeline for every study, at a scenario and at a time; giving both raises ValueError. For any analyzer, whatever its tables hold, the monotone view of a scenario is a permutation of its curve in the timeline, decreasing when the curve holds numbers, and empty without a curve. The views of converters are proved equal to the flows of the study at every destination, and at sources of converters with one source or in studies of one scenario; those of storages for the last one of the study. The others depend on tables that are wrong (C34, C35): theorems named _partial."
  },
  {
   "property": "C62",
   "status": "partial",
   "theorems": [
    "C62_other_gaussians",
    "C62_converter_gaussian_partial",
    "C62_converter_gaussian_refuted"
   ],
   "note": "Proved that views of consumptions, productions and links use the values of the scenario only. Refuted for converters: with two scenarios or more, the view of a scenario always raises IndexError. With one scenario, or at a given time, the view is right (at sources: for converters with one source, or one scenario)."
  },
  {
   "property": "C63",
   "status": "proved",
   "theorems": [
    "C63_network_named",
    "C63_node_named",
    "C63_add_node_named"
   ],
   "note": ""
  },
  {
   "property": "C64",
   "status": "proved",
   "theorems": [
    "C64_rac_title"
   ],
   "note": "For every study, mirrored result and network whose matrix is drawn."
  },
  {
   "property": "C65",
   "status": "partial",
   "theorems": [
    "C65_stack_partial",
    "C65_stack_refuted",
    "C65_stack_any_storages_partial"
   ],
   "note": "For every mirrored result and any order of costs, at every node that feeds no converter with two sources (or one scenario). C65_stack_partial: all elements are drawn when the storage of the node, if any, is the last of the study. C65_stack_any_storages_partial: with any storages, the same curves where, of all storages, only the last one of the study is drawn, in its node. Refuted otherwise: with two storages in a node the first has no area."
  },
  {
   "property": "C66",
   "status": "proved",
   "theorems": [
    "C66_declarations",
    "C66_samples"
   ],
   "note": "For every history of add_data and add_pipeline calls, refused ones included."
  },
  {
   "property": "C67",
   "status": "proved",
   "theorems": [
    "C67_analyzer_exists_iff"
   ],
   "note": "Exact condition, for every study and matching result with two values per series, or any number with versions of pandas that refuse arrays of a wrong length."
  },
  {
   "property": "C68",
   "status": "partial",
   "theorems": [
    "C68_same_object",
    "C68_copy",
    "C68_true_means_same",
    "C68_small_values_partial",
    "C68_after_json",
    "C68_result_copy",
    "C68_same_calls_refuted"
   ],
   "note": "Proved for every study: True is only given for the same data, whatever arrays are shared; a study equals itself. Exact answer proved for all pairs of studies whose values are numbers or arrays of one entry. Refuted otherwise: a copy with any array of two entries or more is not found equal, the comparison raises ValueError (truth value of an array); proved exactly when, for copies of studies, for studies read back from JSON and for results."
  },
  {
   "property": "C69",
   "status": "proved",
   "theorems": [
    "C69_equal_objects_same_hash",
    "C69_what_can_be_hashed"
   ],
   "note": "For every pair of objects, sharing included, and every hash function that gives equal numbers the same hash."
  },
  {
   "property": "C70",
   "status": "partial",
   "theorems": [
    "C70_reproducible_partial",
    "C70_before_is_lost",
    "C70_same_faults_everywhere",
    "C70_faults",
    "C70_run_is_a_run",
    "C70_seed_out_of_range",
    "C70_seed_zero_refuted",
    "C70_own_faults_refuted"
   ],
   "note": "Reproducibility proved for all seeds other than 0, for every generator and pipeline. Refuted for the seed 0, which counts as no seed. Refuted that scenarios get their own faults: with a seed, one draw serves all scenarios, frames with as many rows, losses and calls. Seeding numpy before a call has no effect, and is lost after it. Stages of the user are taken to draw nothing."
  },
  {
   "property": "C71",
   "status": "partial",
   "theorems": [
    "C71_map",
    "C71_needs_coordinates",
    "C71_shades",
    "C71_shades_refuted",
    "C71_idle_refuted"
   ],
   "note": "Circles, arrows, their geometry and the exact place of every colour on the scale proved for every study, mirrored result and limit; colours grow strictly up to the limit. Refuted beyond it: the limit is that of the balances, a link can carry more (colours of 10 and 20 are the same). Refuted when all balances are 0: a link without flow gets the colour of what is no number. Rendering by plotly is not modelled."
  },
  {
   "property": "C72",
   "status": "partial",
   "theorems": [
    "C72_dates_partial",
    "C72_axis_iff",
    "C72_length",
    "C72_one_time_refuted"
   ],
   "note": "Proved for two times or more, within a nanosecond, for both ways of rounding of numpy. Refuted for one time: the end is not on the axis. Rounding of floats is not modelled."
  },
  {
   "property": "C73",
   "status": "proved",
   "theorems": [
    "C73_accepted_iff",
    "C73_proper_element",
    "C73_converter_signs",
    "C73_destination_once_partial",
    "C73_destination_once_refuted"
   ],
   "note": "Exact for every state and call. Consequences: a new element with proper numbers is always accepted; the signs of the data of a converter are free; a destination cannot be replaced once its network and node have non-empty names, but it can in a network named by the empty string."
  },
  {
   "property": "C74",
   "status": "proved",
   "theorems": [
    "C74_more_never_dearer",
    "C74_supply_offers_more",
    "C74_adding_supply",
    "C74_storage_refuted"
   ],
   "note": "For every pair of studies of the API and every scenario, for the cost of the results. No sign of prices is assumed. An additional storage is not such an addition: C74_storage_refuted gives one whose initial content has to be paid for."
  },
  {
   "property": "C75",
   "status": "proved",
   "theorems": [
    "C75_programs_in_units",
    "C75_costs_in_units"
   ],
   "note": "For every pair of studies of the API and every two positive factors; the cost is that of the results. Solver tolerances and rounding of floats are not modelled."
  },
  {
   "property": "C76",
   "status": "proved",
   "theorems": [
    "C76_parts_apart",
    "C76_costs_add"
   ],
   "note": "For every study of the API that puts two studies of the API side by side, in any order of its networks and converters."
  },
  {
   "property": "C77",
   "status": "partial",
   "theorems": [
    "C77_times_apart_partial",
    "C77_each_time_optimal",
    "C77_times_apart_refuted"
   ],
   "note": "Exact for studies without storages. Refuted with a storage, as expected of one: the optimum pays more at one time to save at another."
  },
  {
   "property": "C78",
   "status": "proved",
   "theorems": [
    "C78_study_encoding",
    "C78_result_encoding",
    "C78_attributes"
   ],
   "note": "For every study, result and object. The general encoder is modelled on its own and shown to give the encodings used by the other properties."
  },
  {
   "property": "C79",
   "status": "partial",
   "theorems": [
    "C79_attribute_order",
    "C79_element_texts",
    "C79_container_texts",
    "C79_result_texts",
    "C79_text_tells_partial",
    "C79_text_tells_refuted",
    "C79_counts_refuted",
    "C79_same_text_refuted"
   ],
   "note": "The texts are given exactly for all classes and all ways of writing numbers and arrays. Proved that the text of a consumption, production, link or storage tells all its data, if numbers and arrays are written in full and without parentheses. Refuted for converters, nodes and studies: names are not quoted, so that studies with other converters, or with another number of consumptions, have the same text. Refuted that the same studies have the same text: dictionaries are shown in their order."
  },
  {
   "property": "C80",
   "status": "partial",
   "theorems": [
    "C80_strict",
    "C80_one_cell",
    "C80_weak_partial",
    "C80_weak_refuted"
   ],
   "note": "Exact for < and >. Refuted for <= and >=, which are the negations of > and <: they hold as soon as one cell meets them (C80_one_cell, exact), which is the intended meaning only for numbers and for values on one side (C80_weak_partial)."
  },
  {
   "property": "C81",
   "status": "proved",
   "theorems": [
    "C81_optimum_or_nothing",
    "C81_cheapest_dispatch",
    "C81_optimum_exists",
    "C81_solved_at_best"
   ],
   "note": "For every study with usable converters (others cannot be built into a program). Optimum over rational quantities, by elimination of variables in Optimum.v; the answers of the solver are universally quantified elsewhere, here one that is optimal in every scenario is shown to exist."
  },
  {
   "property": "C82",
   "status": "proved",
   "theorems": [
    "C82_cheapest_iff_equilibrium",
    "C82_prices_exist",
    "C82_same_prices",
    "C82_what_prices_say"
   ],
   "note": "Exact for every study with usable converters, for the laws of the program (C15): a link from a node to itself sells twice, storages after the first of a node are not held to their flows. Prices come from elimination of variables in Optimum.v."
  },
  {
   "property": "C83",
   "status": "partial",
   "theorems": [
    "C83_free_partial",
    "C83_pipeline",
    "C83_shared_refuted"
   ],
   "note": "Over every history in which no list of a free plug is handed to a RestrictedPlug as its outputs; refuted without this condition."
  },
  {
   "property": "C84",
   "status": "proved",
   "theorems": [
    "C84_marginal_cost",
    "C84_enclosed",
    "C84_cost_shared",
    "C84_loads",
    "C84_shed",
    "C84_convex"
   ],
   "note": "For every study with usable converters, for the laws of the program (C15): a link from a node to itself sells twice. Storages are left unchanged between the two studies."
  },
  {
   "property": "C85",
   "status": "proved",
   "theorems": [
    "C85_monotone",
    "C85_gaussian",
    "C85_timeline"
   ],
   "note": "For loads, productions and links; a pivot without rows is taken to keep its columns (DESIGN)."
  },
  {
   "property": "C86",
   "status": "proved",
   "theorems": [
    "C86_read_back",
    "C86_solve",
    "C86_worker",
    "C86_read_back_refuted"
   ],
   "note": "The proviso on names is needed: otherwise two sources may come back as one (C86_read_back_refuted). C86_solve holds for every study."
  },
  {
   "property": "C87",
   "status": "partial",
   "theorems": [
    "C87_duration",
    "C87_candle_text",
    "C87_candle_bars",
    "C87_opacity",
    "C87_colours",
    "C87_matrix_cells",
    "C87_title",
    "C87_candles_refuted"
   ],
   "note": "Two parts are false: a storage that fills has its high below its low, and the flow told may miss the difference of the contents told (C87_candles_refuted). Proved instead: the extremes are right exactly when the content does not grow, and the flow told misses by at most one. Everything else is proved in full."
  },
  {
   "property": "C88",
   "status": "partial",
   "theorems": [
    "C88_result_tells",
    "C88_each_scenario",
    "C88_never_told",
    "C88_told_refuted"
   ],
   "note": "False: the status of the solver is not looked at, so every insolvable study with plain source names is answered with a result that breaks the laws (C88_never_told for all of them, C88_told_refuted for one of non-negative data). Proved instead: whether the solver met the program can be read off the result, and with a solver that finds optima where there are some the result is right exactly in the solvable scenarios."
  },
  {
   "property": "C89",
   "status": "proved",
   "theorems": [
    "C89_no_churn",
    "C89_nothing_left",
    "C89_no_missed_saving",
    "C89_no_losing_trade",
    "C89_dear_first",
    "C89_worth_waiting",
    "C89_free_churn_refuted"
   ],
   "note": "For every storage of a node, also those the program lets evolve freely. The condition that energy has a cost is needed: C89_free_churn_refuted."
  },
  {
   "property": "C90",
   "status": "proved",
   "theorems": [
    "C90_routes_used",
    "C90_routes_unused",
    "C90_no_loops",
    "C90_cheap_routes_first",
    "C90_converters",
    "C90_free_loop_refuted"
   ],
   "note": "Routes are lists of links of any length; C90_no_loops generalises C25 to loops of any length. The fare must be positive: C90_free_loop_refuted."
  },
  {
   "property": "C91",
   "status": "proved",
   "theorems": [
    "C91_mixed_solutions",
    "C91_mean_quantities_cost_less",
    "C91_mean_solvable",
    "C91_same_solutions",
    "C91_mean_prices_cost_more"
   ],
   "note": "Efficiencies, ratios and initial contents are those of the scenarios. Against the program as it is (links of a node to itself, second storages), so no study is left out."
  },
  {
   "property": "C92",
   "status": "proved",
   "theorems": [
    "C92_scale",
    "C92_resolution",
    "C92_one_entry",
    "C92_same_place",
    "C92_level"
   ],
   "note": "The colour map is any function to colours; the text of a colour and what plotly does with its arguments are not modelled. A resolution of 1 divides by zero (C92_one_entry); the code asks for 255."
  },
  {
   "property": "C93",
   "status": "proved",
   "theorems": [
    "C93_nearly_exact",
    "C93_solved",
    "C93_close",
    "C93_cost",
    "C93_solved_cost",
    "C93_insolvable",
    "C93_storage_drift",
    "near_program",
    "never_near",
    "near_point",
    "no_near_point"
   ],
   "note": "Arithmetic on the answer itself (subtracting the lost load from the load) is exact in the model; the rounding of that one subtraction is not covered."
  },
  {
   "property": "C94",
   "status": "proved",
   "theorems": [
    "C94_exact",
    "C94_valid_is_built",
    "C94_built_is_valid",
    "C94_decided"
   ],
   "note": "The validity of values is the one the methods check (one entry on the right side of a limit is enough, see C05). Arguments are numbers, lists, tables and arrays without NaN."
  },
  {
   "property": "C95",
   "status": "proved",
   "theorems": [
    "C95_read_exact",
    "C95_readable",
    "C95_stable",
    "C95_built_readable",
    "C95_checked_refuted"
   ],
   "note": "The types of leaves (texts for names, whole numbers for the dimensions) are checked in the model and not in the code. C95_checked_refuted tells what reading does not check and the building methods do."
  },
  {
   "property": "C96",
   "status": "proved",
   "theorems": [
    "C96_read_exact",
    "C96_readable",
    "C96_stable",
    "C96_solved"
   ],
   "note": "The types of leaves (texts for names, numbers in arrays) are checked in the model and not in the code, which would build arrays of objects."
  },
  {
   "property": "C97",
   "status": "partial",
   "theorems": [
    "C97_mentions_partial",
    "C97_exact",
    "C97_same_title_partial",
    "C97_kinds_refuted",
    "C97_stack_refuted",
    "C97_networks_refuted",
    "C97_spaces_refuted"
   ],
   "note": "C97_mentions_partial: what every title and axis tells; C97_exact: two figures with names without spaces share a title exactly when alike; C97_same_title_partial: and are equal when the untold parts agree. That equal titles mean equal data is false: the kind of data and the scenario of a stack are not told (C97_kinds_refuted, C97_stack_refuted), nor the network (C97_networks_refuted), and names with spaces mix up element and node (C97_spaces_refuted). The percentage of the matrix is computed exactly, not in floats."
  },
  {
   "property": "C98",
   "status": "proved",
   "theorems": [
    "C98_read_exact",
    "C98_unpack_exact",
    "C98_readable",
    "C98_worker_exact"
   ],
   "note": "C98_read_exact and C98_unpack_exact: the readers are equivalent to the relation of SpecReadStep.v; C98_readable: what some tree tells; C98_worker_exact: exactly when the answer of a worker comes back whole. Types of leaves: as in C95, a leaf of another type is refused by the model, which hadar does not check."
  },
  {
   "property": "C99",
   "status": "partial",
   "theorems": [
    "C99_same_dispatches_partial",
    "C99_same_optimum_partial",
    "C99_storage_order_refuted"
   ],
   "note": "C99_same_dispatches_partial and C99_same_optimum_partial hold when the first storage of each node stays the first; without that condition the claim is false: C99_storage_order_refuted swaps the two storages of a node, since StorageBuilder constrains the first alone. No condition on names is needed."
  }
 ]
}