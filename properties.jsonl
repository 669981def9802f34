{"id": "C01", "title": "Broadcast lookup", "statement": "A value given to a study as a number, a list over time, a column over scenarios or a full scenario-by-time matrix, read back at [scn, t], is respectively that number, the t-th list entry, the scn-th column entry, or the (scn, t) matrix entry.", "quantifier": "every horizon, every number of scenarios, every accepted value, every in-range (scn, t)", "why_tests_cant": "tests try one 3x5 instance per shape; the claim ranges over all sizes including the ambiguous ones (horizon = 1, horizon = nb_scn)", "anchors": ["hadar/optimizer/domain/numeric.py:NumericalValueFactory.create", "hadar/optimizer/domain/numeric.py:ScalarNumericalValue.__getitem__", "hadar/optimizer/domain/numeric.py:RowNumericValue.__getitem__", "hadar/optimizer/domain/numeric.py:ColumnNumericValue.__getitem__", "hadar/optimizer/domain/numeric.py:MatrixNumericalValue.__getitem__"]}
{"id": "C02", "title": "Flattening agrees with lookup", "statement": "flatten() of any study value has nb_scn*horizon entries and its entry number scn*horizon + t is the value looked up at [scn, t].", "quantifier": "every accepted value and every in-range (scn, t)", "why_tests_cant": "all analysis tables are built from flatten(); one permuted shape would silently mix scenarios and time steps, and tests use single sizes", "anchors": ["hadar/optimizer/domain/numeric.py:flatten", "hadar/optimizer/domain/numeric.py:NumpyNumericalValue"]}
{"id": "C03", "title": "Only documented shapes are accepted", "statement": "Given anything but an already built study value, the value factory accepts exactly numbers and arrays (or nested lists, frames, value dictionaries) of shape (horizon,), (nb_scn, 1) or (nb_scn, horizon); every other array shape and every other kind of object is refused with an exception.", "quantifier": "every array shape of every rank and every horizon / nb_scn", "why_tests_cant": "the set of wrong shapes is infinite", "anchors": ["hadar/optimizer/domain/numeric.py:NumericalValueFactory.create"]}
{"id": "C04", "title": "Out-of-range lookup", "statement": "Looking up a study value at a scenario >= nb_scn or a time >= horizon raises IndexError, whatever the shape it was given in; in-range lookups never raise.", "quantifier": "every accepted value and every index pair", "why_tests_cant": "tests check one bad index per shape", "anchors": ["hadar/optimizer/domain/numeric.py:__getitem__"]}
{"id": "C05", "title": "Negative data are refused", "statement": "A study never accepts a quantity, capacity or flow with a negative entry, nor a storage efficiency with an entry outside [0, 1].", "quantifier": "every value passed to consumption/production/link/storage", "why_tests_cant": "tests only try scalars; an array comparison may quantify over the entries in the wrong way", "anchors": ["hadar/optimizer/domain/input.py:Study.add_link", "hadar/optimizer/domain/input.py:Study._add_production", "hadar/optimizer/domain/input.py:Study._add_consumption", "hadar/optimizer/domain/input.py:Study._add_storage", "hadar/optimizer/domain/numeric.py:NumpyNumericalValue.__lt__"]}
{"id": "C06", "title": "Well-formed studies", "statement": "After any sequence of building calls, whether each succeeded or raised, the study is well formed: within a node consumption names, production names, storage names and link destinations are unique; link endpoints are nodes of the same network; converter sources are existing nodes and appear once per converter; a converter destination, when set, is an existing node.", "quantifier": "every finite sequence of API calls with any arguments, including calls that raise", "why_tests_cant": "an invariant over all call histories", "anchors": ["hadar/optimizer/domain/input.py:Study", "hadar/optimizer/domain/input.py:NetworkFluentAPISelector", "hadar/optimizer/domain/input.py:NodeFluentAPISelector"]}
{"id": "C07", "title": "A refused call changes nothing", "statement": "A building call that raises leaves the study exactly as it was.", "quantifier": "every study state and every call that raises", "why_tests_cant": "needs every failing call in every state; partial updates before an exception are invisible to tests that only check the exception", "anchors": ["hadar/optimizer/domain/input.py:Study.add_link", "hadar/optimizer/domain/input.py:Study._add_converter", "hadar/optimizer/domain/input.py:Study._set_converter_dest", "hadar/optimizer/domain/input.py:Study._add_converter_src", "hadar/optimizer/domain/input.py:Study._add_storage"]}
{"id": "C08", "title": "An accepted call adds exactly its element", "statement": "A successful consumption/production/storage/link call appends one element carrying the given name and values to the named node, and leaves all other nodes, networks and converters unchanged.", "quantifier": "every study state and every successful call", "why_tests_cant": "frame condition over the whole state", "anchors": ["hadar/optimizer/domain/input.py:Study._add_consumption", "hadar/optimizer/domain/input.py:Study._add_production", "hadar/optimizer/domain/input.py:Study._add_storage", "hadar/optimizer/domain/input.py:Study.add_link"]}
{"id": "C09", "title": "A node selector keeps its node", "statement": "An element added through a node selector obtained from .node(name) lands on node name of the selector's network, whatever was called on other selectors in between.", "quantifier": "every interleaving of calls on any number of selectors", "why_tests_cant": "depends on interleavings of calls on aliased objects", "anchors": ["hadar/optimizer/domain/input.py:NetworkFluentAPISelector.node", "hadar/optimizer/domain/input.py:NodeFluentAPISelector"]}
{"id": "C10", "title": "Selectors stay usable", "statement": "A node or network selector returned by the building API can always be continued with .network, .node and element calls: none of these fails because of the selector's internal state.", "quantifier": "every history of fluent calls", "why_tests_cant": "all call histories", "anchors": ["hadar/optimizer/domain/input.py:NetworkFluentAPISelector.converter", "hadar/optimizer/domain/input.py:NodeFluentAPISelector.network"]}
{"id": "C11", "title": "Study JSON round trip", "statement": "Study.from_json(study.to_json()) yields a study equal to the original.", "quantifier": "every study that can be built with the API, with every element kind and every value shape", "why_tests_cant": "one fixed study in tests; round trip is a statement on all studies and all names", "anchors": ["hadar/optimizer/domain/input.py:Study.to_json", "hadar/optimizer/domain/input.py:Study.from_json", "hadar/optimizer/domain/input.py:Converter.from_json", "hadar/optimizer/utils.py:JSON"]}
{"id": "C12", "title": "Converter source keys survive serialisation", "statement": "The (network, node) pairs that key the sources of a converter are recovered exactly from the text keys used in JSON, and different pairs never collide.", "quantifier": "every pair of network and node names", "why_tests_cant": "depends on every possible string, including ones containing the separator", "anchors": ["hadar/optimizer/domain/input.py:Converter.to_json", "hadar/optimizer/domain/input.py:Converter.from_json", "hadar/optimizer/domain/output.py:OutputConverter.from_json", "hadar/optimizer/lp/domain.py:LPConverter.from_json"]}
{"id": "C13", "title": "Result JSON round trip", "statement": "Result.from_json(result.to_json()) yields a result equal to the original.", "quantifier": "every result produced for every study", "why_tests_cant": "all shapes and names", "anchors": ["hadar/optimizer/domain/output.py:Result", "hadar/optimizer/domain/output.py:OutputNode.from_json", "hadar/optimizer/domain/output.py:OutputConverter.from_json"]}
{"id": "C14", "title": "Decoding does not alter its argument", "statement": "Reading a Study or a Result from a JSON tree leaves the tree unchanged, so that it can be read again.", "quantifier": "every JSON tree", "why_tests_cant": "aliasing/mutation over all inputs", "anchors": ["hadar/optimizer/domain/input.py:Study.from_json", "hadar/optimizer/domain/output.py:Result.from_json", "hadar/optimizer/domain/output.py:OutputNode.from_json", "hadar/optimizer/domain/output.py:OutputNetwork.from_json"]}
{"id": "C15", "title": "The linear program is the documented one", "statement": "For each scenario the program handed to the solver has exactly the feasible set of the documented linear model (bounds, nodal balance, storage evolution, converter ratios) and exactly its objective.", "quantifier": "every study, every scenario, every candidate dispatch", "why_tests_cant": "equivalence over all assignments of all studies", "anchors": ["hadar/optimizer/lp/optimizer.py:AdequacyBuilder", "hadar/optimizer/lp/optimizer.py:StorageBuilder", "hadar/optimizer/lp/optimizer.py:ConverterMixBuilder", "hadar/optimizer/lp/optimizer.py:ObjectiveBuilder", "hadar/optimizer/lp/mapper.py:InputMapper", "docs/source/mathematics/linear-model.rst"]}
{"id": "C16", "title": "Nodal balance", "statement": "In the result of a solve, at every node, scenario and time, energy served + exported + stored + sent to converters = energy produced + imported + taken from storage + received from converters.", "quantifier": "every study and every solver answer satisfying the program", "why_tests_cant": "universal over studies and over solver answers", "anchors": ["hadar/optimizer/lp/optimizer.py:AdequacyBuilder", "hadar/optimizer/lp/mapper.py:OutputMapper.set_node_var", "docs/source/mathematics/linear-model.rst"]}
{"id": "C17", "title": "Capacities are respected", "statement": "In the result of a solve, served energy is between 0 and asked, production between 0 and available, link flows between 0 and link capacity, storage content and flows between 0 and their limits, converter output between 0 and its maximum.", "quantifier": "every study and every solver answer satisfying the program", "why_tests_cant": "universal over studies and solver answers", "anchors": ["hadar/optimizer/lp/mapper.py:InputMapper.get_node_var", "hadar/optimizer/lp/mapper.py:InputMapper.get_conv_var", "hadar/optimizer/lp/mapper.py:OutputMapper.set_node_var"]}
{"id": "C18", "title": "Storage evolution", "statement": "In the result of a solve, the content of every storage at time t is its content at t-1 (its initial content at t = 0) plus flow_in times efficiency minus flow_out.", "quantifier": "every study with any number of storages per node, every scenario and time", "why_tests_cant": "tests use one storage per node; needs induction over time", "anchors": ["hadar/optimizer/lp/optimizer.py:StorageBuilder.add_node", "docs/source/mathematics/linear-model.rst"]}
{"id": "C19", "title": "Converter law", "statement": "In the result of a solve, for every converter, every source, scenario and time, source flow times ratio equals the flow delivered at destination.", "quantifier": "every study and solver answer", "why_tests_cant": "universal over studies", "anchors": ["hadar/optimizer/lp/optimizer.py:ConverterMixBuilder", "hadar/optimizer/lp/mapper.py:InputMapper.get_conv_var", "hadar/optimizer/lp/mapper.py:OutputMapper.set_converter_var"]}
{"id": "C20", "title": "Cost-optimal dispatch", "statement": "When the solver returns an optimum of the program, the returned result has the smallest documented total cost among all dispatches satisfying the documented linear model, in every scenario.", "quantifier": "every study and every competing dispatch", "why_tests_cant": "quantifies over all competing dispatches", "anchors": ["hadar/optimizer/lp/optimizer.py:solve_lp", "hadar/optimizer/lp/optimizer.py:_solve_batch", "hadar/optimizer/lp/optimizer.py:ObjectiveBuilder"]}
{"id": "C21", "title": "A solution always exists", "statement": "The program built for a study with non-negative data always has a feasible dispatch (at worst all load is shed), so that a solve always returns a meaningful result.", "quantifier": "every study accepted by the API", "why_tests_cant": "universal feasibility", "anchors": ["hadar/optimizer/lp/optimizer.py:_solve_batch", "hadar/optimizer/lp/mapper.py:InputMapper", "hadar/optimizer/domain/input.py:Study._add_storage"]}
{"id": "C22", "title": "Merit order", "statement": "In an optimal result, at a given node, scenario and time, a production is used only if every strictly cheaper production of that node is used at its full available quantity.", "quantifier": "every study, every optimal answer, every pair of productions of a node", "why_tests_cant": "exchange argument over all optima", "anchors": ["hadar/optimizer/lp/optimizer.py:ObjectiveBuilder", "hadar/optimizer/lp/optimizer.py:AdequacyBuilder"]}
{"id": "C23", "title": "No needless load shedding", "statement": "In an optimal result, a consumption is not fully served only if every production of the same node strictly cheaper than its shedding cost is used at full available quantity.", "quantifier": "every study and every optimal answer", "why_tests_cant": "exchange argument over all optima", "anchors": ["hadar/optimizer/lp/optimizer.py:ObjectiveBuilder", "hadar/optimizer/lp/optimizer.py:AdequacyBuilder"]}
{"id": "C24", "title": "Costliest load is served first", "statement": "In an optimal result, if a consumption of a node is shed while another consumption of the same node with strictly smaller shedding cost is being served, there is a contradiction: cheaper-to-shed load is shed first.", "quantifier": "every study, every optimal answer, every pair of consumptions of a node", "why_tests_cant": "exchange argument over all optima", "anchors": ["hadar/optimizer/lp/optimizer.py:ObjectiveBuilder", "hadar/optimizer/lp/optimizer.py:AdequacyBuilder"]}
{"id": "C25", "title": "No loop flows on paid links", "statement": "In an optimal result, two opposite links between the same nodes whose costs sum to a positive amount never both carry energy at the same time.", "quantifier": "every study and every optimal answer", "why_tests_cant": "exchange argument over all optima", "anchors": ["hadar/optimizer/lp/optimizer.py:ObjectiveBuilder", "hadar/optimizer/lp/optimizer.py:AdequacyBuilder.add_node"]}
{"id": "C26", "title": "Scenario independence", "statement": "The result of a scenario depends only on that scenario's data: changing costs or quantities of other scenarios does not change it.", "quantifier": "every pair of studies agreeing on one scenario", "why_tests_cant": "relational property over pairs of executions", "anchors": ["hadar/optimizer/lp/optimizer.py:solve_lp", "hadar/optimizer/lp/optimizer.py:_solve_batch", "hadar/optimizer/lp/mapper.py:InputMapper"]}
{"id": "C27", "title": "The result mirrors the study", "statement": "The result of a solve has the networks, nodes, elements, names and order of the study, every array has shape (nb_scn, horizon), and entry [scn, t] is the solver's answer for that scenario and time, however scenarios are distributed among worker processes.", "quantifier": "every study, every solver answer, every completion order of workers", "why_tests_cant": "universal over studies and schedules", "anchors": ["hadar/optimizer/lp/optimizer.py:solve_lp", "hadar/optimizer/lp/mapper.py:OutputMapper", "hadar/optimizer/domain/output.py:OutputNode.build_like_input"]}
{"id": "C28", "title": "Network energy conservation", "statement": "In the result of a solve, summed over all nodes of a network, production + storage withdrawals + energy received from converters = served energy + storage injections + energy sent to converters: links neither create nor lose energy.", "quantifier": "every study and solver answer", "why_tests_cant": "global sum over graphs of any size", "anchors": ["hadar/optimizer/lp/optimizer.py:AdequacyBuilder.build", "hadar/optimizer/lp/optimizer.py:AdequacyBuilder.add_node"]}
{"id": "C29", "title": "Solving does not depend on names", "statement": "A study that the API accepts is solved without error whatever its network, node and element names are.", "quantifier": "every choice of names", "why_tests_cant": "all strings; internal text keys may clash with user names", "anchors": ["hadar/optimizer/lp/optimizer.py:_solve_batch", "hadar/optimizer/lp/domain.py:JSONLP.to_json", "hadar/optimizer/lp/domain.py:LPConverter.from_json", "hadar/optimizer/lp/mapper.py:OutputMapper.set_converter_var"]}
{"id": "C30", "title": "Remote solve protocol", "statement": "A remote solve submits the study exactly once, then polls only the job it was given, and stops at the first answer whose status is neither QUEUED nor COMPUTING, returning that answer's result.", "quantifier": "every sequence of server answers", "why_tests_cant": "all histories of an external server", "anchors": ["hadar/optimizer/remote/optimizer.py:solve_remote"]}
{"id": "C31", "title": "Remote failures are reported", "statement": "A remote solve never returns a result after the server reported ERROR, or after an HTTP 403, 404 or 500 answer: it raises ServerError, ValueError, ValueError and IOError respectively.", "quantifier": "every sequence of server answers", "why_tests_cant": "all histories of an external server", "anchors": ["hadar/optimizer/remote/optimizer.py:solve_remote", "hadar/optimizer/remote/optimizer.py:check_code"]}
{"id": "C32", "title": "Remote equals local", "statement": "If the server answers with the JSON of the local solver's result on the JSON study it received, a remote solve returns the same result as a local solve.", "quantifier": "every study and every number of polling answers", "why_tests_cant": "composition of two round trips over all studies and all histories", "anchors": ["hadar/optimizer/remote/optimizer.py:solve_remote", "hadar/optimizer/domain/input.py:Study.to_json", "hadar/optimizer/domain/output.py:Result.from_json", "hadar/optimizer/optimizer.py:RemoteOptimizer"]}
{"id": "C33", "title": "Analysis tables are faithful", "statement": "The flat consumption, production and link tables contain, for every element, scenario and time exactly one row, carrying the study's cost and quantity and the result's dispatched quantity at that scenario and time.", "quantifier": "every study and matching result", "why_tests_cant": "array offset arithmetic over all sizes", "anchors": ["hadar/analyzer/result.py:ResultAnalyzer._build_consumption", "hadar/analyzer/result.py:ResultAnalyzer._build_production", "hadar/analyzer/result.py:ResultAnalyzer._build_link"]}
{"id": "C34", "title": "Storage table is faithful", "statement": "The flat storage table contains, for every storage, scenario and time exactly one row with that storage's study and result values.", "quantifier": "every study with any number of storages", "why_tests_cant": "tests use one storage", "anchors": ["hadar/analyzer/result.py:ResultAnalyzer._build_storage"]}
{"id": "C35", "title": "Converter tables are faithful", "statement": "The flat converter tables contain, for every converter (destination side) or converter and source (source side), scenario and time exactly one row with the right flow.", "quantifier": "every study with any number of converters and sources", "why_tests_cant": "tests use few converters and one scenario", "anchors": ["hadar/analyzer/result.py:ResultAnalyzer._build_dest_converter", "hadar/analyzer/result.py:ResultAnalyzer._build_src_converter"]}
{"id": "C36", "title": "Queries return exactly the selected rows", "statement": "A query by network, node, element, scenario and time returns one line per table row matching every selection, with the row's values unchanged, ordered by the axes in the order in which they were asked.", "quantifier": "every table with unique keys and every selection", "why_tests_cant": "all selections over all tables; the implementation averages rows and drops index levels", "anchors": ["hadar/analyzer/result.py:ResultAnalyzer.filter", "hadar/analyzer/result.py:ResultAnalyzer._pivot", "hadar/analyzer/result.py:Index.filter", "hadar/analyzer/result.py:ResultAnalyzer._remove_useless_index_level"]}
{"id": "C37", "title": "Axis order only affects layout", "statement": "Permuting the axes of a query selects the same rows with the same values.", "quantifier": "every permutation of axes and every selection", "why_tests_cant": "all permutations over all data", "anchors": ["hadar/analyzer/result.py:ResultAnalyzer.filter", "hadar/analyzer/result.py:ResultAnalyzer._pivot"]}
{"id": "C38", "title": "A partial query can be reused", "statement": "Completing the same partially built query twice with different choices returns, each time, the answer of the corresponding freshly written query.", "quantifier": "every partial query and every sequence of completions", "why_tests_cant": "aliasing over call histories", "anchors": ["hadar/analyzer/result.py:NetworkFluentAPISelector._append"]}
{"id": "C39", "title": "Time and scenario slices", "statement": "A slice start:stop passed to time() or scn() selects exactly the integers i with start <= i < stop, an omitted start meaning 0 and an omitted stop meaning the end.", "quantifier": "every slice", "why_tests_cant": "all slices, including open ones", "anchors": ["hadar/analyzer/result.py:IntIndex"]}
{"id": "C40", "title": "Balances", "statement": "get_balance of a node is the energy sent on links leaving it minus the energy received on links reaching it, for every scenario and time, and balances of all nodes of a network sum to zero.", "quantifier": "every study and result", "why_tests_cant": "global sum over graphs of any size", "anchors": ["hadar/analyzer/result.py:ResultAnalyzer.get_balance"]}
{"id": "C41", "title": "Costs", "statement": "get_cost returns for every scenario and time the shedding, production, link, storage and converter costs of the node, and summed over nodes and time it equals the objective minimised by the solver.", "quantifier": "every study and solver answer", "why_tests_cant": "links two independently written pieces of code over all studies", "anchors": ["hadar/analyzer/result.py:ResultAnalyzer.get_cost", "hadar/optimizer/lp/optimizer.py:ObjectiveBuilder"]}
{"id": "C42", "title": "Remaining available capacity", "statement": "get_rac returns for every scenario and time the unused production minus the unserved consumption of the network, also when some kinds of element are absent.", "quantifier": "every study and result", "why_tests_cant": "all studies including those with empty tables", "anchors": ["hadar/analyzer/result.py:ResultAnalyzer.get_rac"]}
{"id": "C43", "title": "Element counts", "statement": "get_elements_inside of a node counts its consumptions, productions, storages, links, outgoing and incoming converters, and the counts of a network are the sums over its nodes.", "quantifier": "every study and result", "why_tests_cant": "additivity over all structures", "anchors": ["hadar/analyzer/result.py:ResultAnalyzer.get_elements_inside"]}
{"id": "C44", "title": "Plug arithmetic", "statement": "Adding plugs follows the documented rules: a free plug is neutral, and for restricted plugs the sum needs the first one's inputs and offers the second one's outputs plus the first one's outputs that the second does not consume; linking is accepted exactly when the second's inputs are among the first's outputs.", "quantifier": "every pair of plugs", "why_tests_cant": "all lists of names", "anchors": ["hadar/workflow/pipeline.py:RestrictedPlug", "hadar/workflow/pipeline.py:FreePlug", "docs/source/architecture/workflow.rst"]}
{"id": "C45", "title": "Accepted pipelines run", "statement": "If stages linked with + were accepted and the input frame has the columns the pipeline asks for, then no stage of the pipeline raises for missing columns.", "quantifier": "every pipeline length, every stage contract, every input frame", "why_tests_cant": "induction over all pipelines and frames", "anchors": ["hadar/workflow/pipeline.py:Pipeline.__add__", "hadar/workflow/pipeline.py:Pipeline.__call__", "hadar/workflow/pipeline.py:Stage.__call__", "hadar/workflow/pipeline.py:Plug.computable"]}
{"id": "C46", "title": "The constructor checks links", "statement": "Pipeline([s1, ..., sn]) accepts the same stages as s1 + ... + sn.", "quantifier": "every list of stages", "why_tests_cant": "all stage lists, in particular with a free stage between restricted ones", "anchors": ["hadar/workflow/pipeline.py:Pipeline.__init__", "hadar/workflow/pipeline.py:Pipeline.__add__"]}
{"id": "C47", "title": "Linking leaves its operands alone", "statement": "Linking stages or pipelines leaves previously built stages and pipelines unchanged, so that they can be reused in other pipelines.", "quantifier": "every history of linking operations", "why_tests_cant": "aliasing over all histories", "anchors": ["hadar/workflow/pipeline.py:RestrictedPlug.__add__", "hadar/workflow/pipeline.py:Pipeline.__add__"]}
{"id": "C48", "title": "Clip bounds", "statement": "Clip leaves no value outside [lower, upper], leaves values already inside untouched, and clipping twice is the same as clipping once.", "quantifier": "every frame and every bound pair", "why_tests_cant": "all frames", "anchors": ["hadar/workflow/pipeline.py:Clip"]}
{"id": "C49", "title": "Rename only renames", "statement": "Rename changes exactly the mapped column names, in every scenario, and changes neither values, nor order, nor scenario labels.", "quantifier": "every frame and every mapping", "why_tests_cant": "all frames and mappings", "anchors": ["hadar/workflow/pipeline.py:Rename"]}
{"id": "C50", "title": "Drop only drops", "statement": "Drop removes, in every scenario, exactly the columns with the given names and leaves the others untouched and in order.", "quantifier": "every frame and every list of names", "why_tests_cant": "all frames and names", "anchors": ["hadar/workflow/pipeline.py:Drop"]}
{"id": "C51", "title": "Repeat scenario", "statement": "RepeatScenario(n) yields n times the scenarios, where scenario k*nb_scn + s holds for every column name the data of the s-th input scenario.", "quantifier": "every frame and every n", "why_tests_cant": "all column layouts", "anchors": ["hadar/workflow/pipeline.py:RepeatScenario", "hadar/workflow/pipeline.py:Stage.build_multi_index"]}
{"id": "C52", "title": "Fault injection", "statement": "Fault lowers quantity at each time by loss times the number of drawn faults covering that time, never raises it (for a non-negative loss), leaves times without a fault unchanged, and never writes outside the horizon.", "quantifier": "every frame and every random draw", "why_tests_cant": "all random outcomes", "anchors": ["hadar/workflow/pipeline.py:Fault"]}
{"id": "C53", "title": "Scenarios are processed independently", "statement": "In a stage processing scenarios one by one, the output of a scenario is what the stage computes on that scenario's input alone, at every row of the input.", "quantifier": "every frame, including every row index", "why_tests_cant": "all frames and row labels", "anchors": ["hadar/workflow/pipeline.py:FocusStage"]}
{"id": "C54", "title": "Samples come from the data", "statement": "Each sampled scenario of the shuffler is one of the scenarios of the source data, the requested number of scenarios is returned for every timeline, and nothing depends on how timelines are distributed among workers.", "quantifier": "every data set, every random draw, every completion order", "why_tests_cant": "all random outcomes and schedules", "anchors": ["hadar/workflow/shuffler.py:Timeline.sample", "hadar/workflow/shuffler.py:Shuffler.shuffle"]}
{"id": "C55", "title": "The shuffler only accepts usable pipelines", "statement": "add_pipeline accepts a pipeline only if it produces the column the shuffler reads and its data has the columns the pipeline asks for; an accepted pipeline's sampling then never fails for a missing column, and a refused one is not recorded.", "quantifier": "every pipeline and frame", "why_tests_cant": "all pipelines and frames", "anchors": ["hadar/workflow/shuffler.py:Shuffler.add_pipeline", "hadar/workflow/shuffler.py:TimelinePipeline", "hadar/workflow/pipeline.py:Pipeline.assert_to_shuffler"]}
{"id": "C56", "title": "Running a pipeline leaves the caller's data alone", "statement": "Running a pipeline never changes the values of the frame it was given; at most flat column labels are turned into (0, label), and doing so twice is the same as once.", "quantifier": "every frame and pipeline", "why_tests_cant": "all frames", "anchors": ["hadar/workflow/pipeline.py:Stage.standardize_column", "hadar/workflow/pipeline.py:Pipeline.__call__"]}
{"id": "C57", "title": "Storage candles", "statement": "In the candle view of a storage each candle opens at the previous close (the first at the initial content) and closes at the storage content given by the result.", "quantifier": "every study, solver answer and horizon", "why_tests_cant": "induction over time, linking viewer and solver", "anchors": ["hadar/viewer/abc.py:StorageFluentAPISelector.candles"]}
{"id": "C58", "title": "Exchange map", "statement": "On the exchange map, the value drawn on a line is the non-negative net energy exchanged between two nodes in the direction of the net flow, and no node balance exceeds the colour limit.", "quantifier": "every network and result", "why_tests_cant": "all graphs", "anchors": ["hadar/viewer/abc.py:NetworkFluentAPISelector.map"]}
{"id": "C59", "title": "Stacked view is balanced", "statement": "In the stacked view of a node drawn with used production and given consumption, the total height of supply areas equals the total height of demand lines at every time.", "quantifier": "every study and solver answer", "why_tests_cant": "links viewer, analyzer and solver over all studies", "anchors": ["hadar/viewer/abc.py:NodeFluentAPISelector.stack"]}
{"id": "C60", "title": "Matrix colours", "statement": "The normalised values shown in a remaining-capacity matrix lie in [-1, 1] and have the sign of the original values; the drawing never fails.", "quantifier": "every matrix", "why_tests_cant": "all matrices including one-signed ones", "anchors": ["hadar/viewer/html.py:HTMLElementPlotting.matrix"]}
{"id": "C61", "title": "Monotone view", "statement": "The monotone view shows exactly the values of the timeline, each as often as it occurs, in decreasing order.", "quantifier": "every series", "why_tests_cant": "permutation and order over all series", "anchors": ["hadar/viewer/html.py:HTMLElementPlotting.monotone", "hadar/viewer/abc.py:not_both"]}
{"id": "C62", "title": "Gaussian views of converters select one scenario", "statement": "The gaussian view of a converter flow for a given scenario uses only the values of that scenario, as the views of the other elements do.", "quantifier": "every study and scenario", "why_tests_cant": "depends on nb_scn; tests use one scenario", "anchors": ["hadar/viewer/abc.py:SrcConverterFluentAPISelector.gaussian", "hadar/viewer/abc.py:DestConverterFluentAPISelector.gaussian"]}
{"id": "C63", "title": "Naming a network or node again keeps it", "statement": "A call that names a network or a node creates it empty when it is new and changes nothing when it exists: every other node, and the content of an existing one, stay as they were.", "quantifier": "every study state and every call of network, add_network, node, add_node", "why_tests_cant": "frame condition over the whole state; tests never name a network twice with elements in it", "anchors": ["hadar/optimizer/domain/input.py:Study.network", "hadar/optimizer/domain/input.py:Study.add_network", "hadar/optimizer/domain/input.py:Study.add_node", "hadar/optimizer/domain/input.py:NetworkFluentAPISelector.node"]}
{"id": "C64", "title": "Adequacy percentage of the matrix", "statement": "The percentage in the title of a remaining-capacity matrix is the share of scenarios and times at which the network has a remaining capacity of at least zero.", "quantifier": "every study, result and network", "why_tests_cant": "counts over all scenarios and times of every study; tests never read the title", "anchors": ["hadar/viewer/abc.py:NetworkFluentAPISelector.rac_matrix"]}
{"id": "C65", "title": "Curves of the stacked view", "statement": "In the stacked view of a node, every production, storage and incoming converter gives exactly one area, every consumption, storage and outgoing converter exactly one line, each thick of its own quantity above the curves before it; the net import or export is added when it is not zero everywhere.", "quantifier": "every study, result, node, scenario and choice of columns", "why_tests_cant": "all compositions of elements and orders of costs", "anchors": ["hadar/viewer/abc.py:NodeFluentAPISelector.stack", "hadar/viewer/html.py:HTMLElementPlotting.stack"]}
{"id": "C66", "title": "The last accepted declaration of a timeline counts", "statement": "After any history of add_data and add_pipeline calls, the shuffler holds under each name the timeline of the last accepted call with this name, in the order of the first accepted calls; refused calls leave nothing, and sampling gives for exactly these names rows of what stands under them.", "quantifier": "every history of calls, every pipeline and frame, every sampler and distribution", "why_tests_cant": "all histories of repeated, replaced and refused declarations", "anchors": ["hadar/workflow/shuffler.py:Shuffler.add_data", "hadar/workflow/shuffler.py:Shuffler.add_pipeline", "hadar/workflow/shuffler.py:Shuffler.shuffle"]}
{"id": "C67", "title": "Which studies can be analysed", "statement": "In a study with at least two values per series, the analyzer accepts the study with its result if and only if every converter has a cost and a maximum, there are at least as many sources as converters, and every converter has at most one source, except that the last one to have any may have two; otherwise building it raises an error.", "quantifier": "every study built through the fluent interface and every matching result", "why_tests_cant": "all numbers and orders of converters and sources", "anchors": ["hadar/analyzer/result.py:ResultAnalyzer.__init__", "hadar/analyzer/result.py:ResultAnalyzer._build_src_converter", "hadar/analyzer/result.py:ResultAnalyzer._build_dest_converter"]}
{"id": "C68", "title": "Comparing studies and results", "statement": "Comparing two studies with == says whether they hold the same data: True exactly when names, dimensions, elements in their order, networks and converters are the same up to the order of dictionaries, False otherwise; a study or a result equals its copy and its reading back from JSON.", "quantifier": "every pair of studies built through the fluent interface, every result of a study, any sharing of arrays", "why_tests_cant": "all pairs of studies, values and sharings of arrays between the two", "anchors": ["hadar/optimizer/utils.py:DTO.__eq__", "hadar/optimizer/domain/numeric.py:NumericalValueFactory.__eq__", "hadar/optimizer/domain/input.py:Study"]}
{"id": "C69", "title": "Hashing agrees with equality", "statement": "Two library objects found equal have the same hash or have none; an element has a hash exactly when all its values are plain numbers, and converters, nodes, networks, studies and results never have one.", "quantifier": "every object, every order of attributes, every hash function of numbers, strings and tuples", "why_tests_cant": "all objects and hash functions", "anchors": ["hadar/optimizer/utils.py:DTO.__hash__", "hadar/optimizer/utils.py:DTO.__eq__"]}
{"id": "C70", "title": "Faults are reproducible with a seed", "statement": "A pipeline whose Fault stages all have a seed gives the same frames on every call, whatever the entropy of the system and whatever was drawn before; each scenario still gets its own faults, within the limits of downtime.", "quantifier": "every generator, seed, entropy, pipeline, frame and number of scenarios", "why_tests_cant": "all generator states, seeds and frames", "anchors": ["hadar/workflow/pipeline.py:Fault._process_scenarios", "hadar/workflow/pipeline.py:Stage.__call__", "hadar/workflow/pipeline.py:FocusStage._process_timeline"]}
{"id": "C71", "title": "The map is drawn as computed", "statement": "With coordinates for its nodes, the map of a network has a circle at each node with its balance, and for each line of the exchange map one arrow from the exporting to the importing node, whose colour grows with the energy carried; without coordinates it is refused.", "quantifier": "every study, mirrored result, network with a node, scenario, time, limit, coordinates and size", "why_tests_cant": "all networks, coordinates and limits", "anchors": ["hadar/viewer/html.py:HTMLElementPlotting.map_exchange", "hadar/viewer/html.py:HTMLElementPlotting._plot_links"]}
{"id": "C72", "title": "The time axis has a value for each time", "statement": "The viewer numbers the times, or, given a start and an end, has one date per time spread evenly from the start to the end; given only one of them it is refused.", "quantifier": "every horizon, start and end", "why_tests_cant": "all horizons and dates", "anchors": ["hadar/viewer/abc.py:ABCPlotting.__init__"]}
{"id": "C73", "title": "Which calls are accepted", "statement": "A call that builds a study is accepted exactly when its selector fits the call, the networks and nodes it names exist, its name is new, its data fit the study, and quantities, capacities and flows have an entry that is not negative (an efficiency also one at most 1).", "quantifier": "every state of a study and its selectors, every call and argument", "why_tests_cant": "tests try a few refused calls; over-strict checks would refuse valid studies unnoticed", "anchors": ["hadar/optimizer/domain/input.py:Study.add_link", "hadar/optimizer/domain/input.py:Study._add_storage", "hadar/optimizer/domain/input.py:Study._set_converter_dest", "hadar/optimizer/domain/input.py:Study._add_converter_src", "hadar/optimizer/domain/input.py:NodeFluentAPISelector", "hadar/optimizer/domain/input.py:NetworkFluentAPISelector"]}
{"id": "C74", "title": "A study that offers more never costs more", "statement": "If a second study has the same nodes and loads and offers at least what the first does, at most at the same prices (larger, cheaper or additional productions, links and converters, larger or cheaper storages), the optimal cost of each scenario is not larger. In particular, adding productions and links by the building calls never makes the optimum dearer.", "quantifier": "every pair of studies built by the API, every optimal answer, every scenario", "why_tests_cant": "compares the optima of two programs of different size, for all data", "anchors": ["hadar/optimizer/lp/optimizer.py:_solve_batch", "hadar/optimizer/lp/optimizer.py:ObjectiveBuilder", "hadar/optimizer/lp/optimizer.py:AdequacyBuilder", "hadar/optimizer/domain/input.py:Study._add_production", "hadar/optimizer/domain/input.py:Study.add_link"]}
{"id": "C75", "title": "The units of energy and money do not matter", "statement": "If a second study holds the data of the first in other units (each quantity, capacity, flow and initial content times k, each price times c, k and c positive, efficiencies and ratios unchanged), the dispatches of its program are those of the first times k, the optimal ones correspond too, and the optimal cost is k*c times the first one.", "quantifier": "every pair of studies built by the API that differ by units, every factor, every assignment, every optimal answer, every scenario", "why_tests_cant": "holds for all factors and data; an additive constant or a fixed limit hidden in the program would go unnoticed", "anchors": ["hadar/optimizer/lp/optimizer.py:_solve_batch", "hadar/optimizer/lp/optimizer.py:ObjectiveBuilder", "hadar/optimizer/lp/optimizer.py:AdequacyBuilder", "hadar/optimizer/lp/optimizer.py:StorageBuilder", "hadar/optimizer/lp/optimizer.py:ConverterMixBuilder", "hadar/optimizer/lp/mapper.py:InputMapper"]}
{"id": "C76", "title": "Separate parts are solved apart", "statement": "If the networks and converters of a study are those of two studies side by side, an assignment satisfies its program exactly when it satisfies the programs of both parts, it is optimal exactly when it is optimal for both, any two dispatches of the parts can be put together, and the optimal cost is the sum of those of the parts.", "quantifier": "every study built by the API made of two others, in any order of networks and converters, every assignment, every optimal answer, every scenario", "why_tests_cant": "a coefficient mixing up equal node names of two networks or of two converters shows only for some combinations", "anchors": ["hadar/optimizer/lp/optimizer.py:_solve_batch", "hadar/optimizer/lp/optimizer.py:ObjectiveBuilder", "hadar/optimizer/lp/optimizer.py:AdequacyBuilder", "hadar/optimizer/lp/optimizer.py:StorageBuilder", "hadar/optimizer/lp/optimizer.py:ConverterMixBuilder"]}
{"id": "C77", "title": "Without storage times are solved apart", "statement": "A result that follows the laws of the program is optimal exactly when at each time its cost is the least possible at that time.", "quantifier": "every study built by the API, every result and scenario", "why_tests_cant": "compares with all other dispatches at each time", "anchors": ["hadar/optimizer/lp/optimizer.py:_solve_batch", "hadar/optimizer/lp/optimizer.py:ObjectiveBuilder", "hadar/optimizer/lp/optimizer.py:AdequacyBuilder", "hadar/optimizer/lp/optimizer.py:StorageBuilder", "hadar/optimizer/lp/optimizer.py:ConverterMixBuilder"]}
{"id": "C78", "title": "Encoding an object is encoding its attributes", "statement": "The encoding of a study or a result for storage or sending is what the general encoder makes of its objects, attribute by attribute with the exceptions of three classes; the encoding of an object of any class but the study has exactly its attributes, in their order.", "quantifier": "every study, every result, every object", "why_tests_cant": "an attribute that is dropped or renamed matters only to whoever reads it back", "anchors": ["hadar/optimizer/utils.py:JSON.convert", "hadar/optimizer/utils.py:JSON.to_json", "hadar/optimizer/domain/input.py:Converter.to_json", "hadar/optimizer/domain/input.py:Study.to_json", "hadar/optimizer/domain/output.py:OutputConverter.to_json"]}
{"id": "C79", "title": "The text of an object", "statement": "The text of an object names its class and its attributes in alphabetical order, whatever the order in which they were set, and tells all its data: objects with the same text are the same, and the same objects have the same text.", "quantifier": "every element, study, result and way of writing numbers, arrays and quoted names", "why_tests_cant": "two objects that look alike have to be found", "anchors": ["hadar/optimizer/utils.py:DTO.__str__", "hadar/optimizer/utils.py:DTO.__repr__"]}
{"id": "C80", "title": "Comparing a value with a number", "statement": "A value of a study compares with a number by <, >, <= or >= exactly when the numbers read in all its cells do.", "quantifier": "every horizon, number of scenarios, accepted value and number", "why_tests_cant": "a mixed table satisfies some comparisons and not others", "anchors": ["hadar/optimizer/domain/numeric.py:NumericalValue.__le__", "hadar/optimizer/domain/numeric.py:NumericalValue.__ge__", "hadar/optimizer/domain/numeric.py:ScalarNumericalValue.__lt__", "hadar/optimizer/domain/numeric.py:NumpyNumericalValue.__lt__", "hadar/optimizer/domain/numeric.py:NumpyNumericalValue.__gt__"]}
{"id": "C81", "title": "A study that can be satisfied has a cheapest dispatch", "statement": "The linear program of a scenario either has no solution or has one of least cost: it is never unbounded and its least cost is attained. When no bound is negative and the initial contents of storages fit, there always is one.", "quantifier": "every study built by API calls, every scenario", "why_tests_cant": "a test only sees the programs it solves; existence of an optimum concerns all of them", "anchors": ["hadar/optimizer/lp/optimizer.py:solve_lp", "hadar/optimizer/lp/optimizer.py:_solve_batch", "hadar/optimizer/lp/optimizer.py:ObjectiveBuilder", "hadar/optimizer/lp/mapper.py:InputMapper.get_node_var"]}
{"id": "C82", "title": "The cheapest dispatch has prices", "statement": "A dispatch that follows the laws of the study is the cheapest one exactly when there is a price of energy at each node and time at which every consumption, production, link, storage and converter does its best on its own: productions dearer than the price rest, cheaper ones run in full, one partly used sets the price, and likewise for loads, links, converters and whole plans of storages.", "quantifier": "every study built by API calls, every scenario, every result of its structure", "why_tests_cant": "prices are not computed by the program; the statement quantifies over all dispatches and all plans", "anchors": ["hadar/optimizer/lp/optimizer.py:ObjectiveBuilder", "hadar/optimizer/lp/optimizer.py:AdequacyBuilder", "hadar/optimizer/lp/optimizer.py:StorageBuilder", "hadar/optimizer/lp/optimizer.py:ConverterMixBuilder"]}
{"id": "C83", "title": "A stage that asks for nothing refuses nothing", "statement": "A stage with a free plug goes on asking for no column, whatever it is linked with: it never refuses a frame, called alone or inside a pipeline. A pipeline asks for nothing exactly if none of the stages it is built from does, and then refuses no frame.", "quantifier": "every history of creating and linking stages and pipelines, with shared lists of names and of stages; every frame", "why_tests_cant": "linking changes lists of names in place, so that any earlier link may reach a later stage; tests see a few histories", "anchors": ["hadar/workflow/pipeline.py:FreePlug", "hadar/workflow/pipeline.py:RestrictedPlug.__add__", "hadar/workflow/pipeline.py:Pipeline.__init__", "hadar/workflow/pipeline.py:Stage.__call__"]}
{"id": "C84", "title": "Prices tell how the cost follows the quantities", "statement": "The cost of a cheapest dispatch is the worth of the loads at its prices less the worth of the capacities and what the storages earn. When the quantities of loads, productions, links and converters change, every lawful dispatch of the changed study costs at least the change in worth more; the prices before and after enclose the change of the cheapest cost. A load that grows costs at least the lesser of its price and its unavailability cost per unit, and can be shed at its unavailability cost. The cheapest cost of a study in between two studies is at most the cost in between.", "quantifier": "every pair of studies the API can build that differ only in these quantities; every dispatch, price and proportion", "why_tests_cant": "the bounds compare the cheapest dispatches of all studies, tests compute a few", "anchors": ["hadar/optimizer/lp/optimizer.py:ObjectiveBuilder", "hadar/optimizer/lp/optimizer.py:AdequacyBuilder", "hadar/optimizer/lp/optimizer.py:_solve_batch", "hadar/analyzer/result.py:ResultAnalyzer.get_cost"]}
{"id": "C85", "title": "Views of what a study does not have", "statement": "Asked for an element, a time or a scenario the study does not have, a monotone view draws no point, a gaussian view raises and a timeline of an unknown element raises: none shows the values of another element, time or scenario, not even for negative positions.", "quantifier": "every study, result and analyzer; every name, every integer as time or scenario", "why_tests_cant": "tests draw what exists; the names and positions outside are unbounded", "anchors": ["hadar/viewer/abc.py:ConsumptionFluentAPISelector.monotone", "hadar/viewer/abc.py:ConsumptionFluentAPISelector.gaussian", "hadar/viewer/html.py:HTMLPlotting.timeline", "hadar/viewer/html.py:HTMLPlotting.gaussian"]}
{"id": "C86", "title": "Answers survive the passage between processes", "statement": "What a worker packs is read back by the main process whole: every element of every time step with its name, costs, bounds and the values of its variables, every converter with each of its sources, provided the names of sources do not hold the separator. Reading never fails, and the result written is the one the values of the variables dictate.", "quantifier": "every study, scenario, answer of the solver and order of the workers", "why_tests_cant": "tests pass a few elements through; names, numbers and shapes are unbounded", "anchors": ["hadar/optimizer/lp/domain.py:JSONLP.to_json", "hadar/optimizer/lp/domain.py:LPConverter.from_json", "hadar/optimizer/lp/domain.py:LPNode.from_json", "hadar/optimizer/lp/domain.py:LPTimeStep.from_json", "hadar/optimizer/lp/optimizer.py:solve_lp"]}
{"id": "C87", "title": "Axes, labels and colours of the figures tell the truth", "statement": "The monotone view is a duration curve: one point per value, evenly from 0% to 100%, where at x% stands a value exceeded by at most x% of the other values and reached by at least x%. Each candle stands at its time; the contents and flow in its text are those of the storage without their digits after the point, its high and low are the extremes of its contents, and the flow told is the difference of the contents told. Curves are visible however many scenarios there are; ten lines have ten colours. Each cell of the matrix stands at its scenario and time, shows the remaining capacity and is coloured by its sign; its title rounds down and says 100 only if nothing is missing.", "quantifier": "every list of values, study made with the API, result and network", "why_tests_cant": "tests compare hashes of a few figures; values and sizes are unbounded", "anchors": ["hadar/viewer/html.py:HTMLElementPlotting.monotone", "hadar/viewer/html.py:HTMLElementPlotting.candles", "hadar/viewer/html.py:HTMLElementPlotting.timeline", "hadar/viewer/html.py:HTMLElementPlotting.stack", "hadar/viewer/html.py:HTMLElementPlotting.matrix", "hadar/viewer/abc.py:NetworkFluentAPISelector.rac_matrix"]}
{"id": "C88", "title": "A study without solution is not answered with a result", "statement": "If the program of a scenario has no solution, solving raises an error; a result that is returned follows the laws of the program in every scenario.", "quantifier": "every study made with the API, scenario, solver and order of the workers", "why_tests_cant": "tests solve solvable studies only", "anchors": ["hadar/optimizer/lp/optimizer.py:_solve_batch", "hadar/optimizer/lp/optimizer.py:solve_lp"]}
{"id": "C89", "title": "Storages save what can be saved", "statement": "In a cheapest dispatch, at a node where energy has a cost: a storage does not take and give at once if it loses something; nothing is left in it at the end that could have saved something; energy cheap now is stored for a dearer time as far as the flows and the capacity allow if the loss and the keeping are paid for; it is not stored at a loss; what is in store is given at the time it saves most, earlier or later.", "quantifier": "every study made with the API with plain source names, scenario, optimal answer, storage, pair of times", "why_tests_cant": "quantifies over all studies and all optima", "anchors": ["hadar/optimizer/lp/optimizer.py:StorageBuilder", "hadar/optimizer/lp/optimizer.py:ObjectiveBuilder", "hadar/optimizer/lp/optimizer.py:AdequacyBuilder"]}
{"id": "C90", "title": "Links and converters bring energy where it is worth more", "statement": "In a cheapest dispatch, if energy can be had for less at one node than it saves at another, fares of the links included, a link of every route between them is full; a route not worth its fare has an idle link; nothing goes around a loop whose fare is positive, of whatever length; a dear route is not used while a cheap one is free; a converter worth its sources and its cost delivers its maximum and one that is not rests.", "quantifier": "every study made with the API with plain source names, scenario, optimal answer, time, route of links of any length, converter with positive ratios", "why_tests_cant": "quantifies over all networks, routes and optima", "anchors": ["hadar/optimizer/lp/optimizer.py:AdequacyBuilder", "hadar/optimizer/lp/optimizer.py:ObjectiveBuilder", "hadar/optimizer/lp/optimizer.py:ConverterMixBuilder"]}
{"id": "C91", "title": "What averaged data tell about the cost", "statement": "Solving a study whose quantities are the weighted mean of the quantities of several scenarios, prices being the same, costs at most the mean of the costs of these scenarios: the mean of their dispatches is a lawful dispatch of it, so it is solvable as soon as they are. Solving a study whose prices are the mean, quantities being the same, costs at least the mean.", "quantifier": "all studies built through the API with any number of scenarios, all non-negative weights adding up to 1, all optimal answers of the solver, all orders of workers", "why_tests_cant": "Convexity in the quantities and concavity in the prices are facts about all mixtures of all dispatches of all studies; a test compares a few costs.", "anchors": ["hadar/optimizer/lp/optimizer.py:ObjectiveBuilder", "hadar/optimizer/lp/optimizer.py:AdequacyBuilder", "hadar/optimizer/lp/mapper.py:InputMapper"]}
{"id": "C92", "title": "Circles and arrows tell the same by their colours", "statement": "The colour scale handed to plotly is the one of matplotlib: as many entries as asked, evenly from 0 to 1, each part of a colour within one of 255 times that of the map. An arrow with some energy has on the scale the place of a circle with that balance, up to the limit; opposite balances are at the same distance from the middle. The level of messages is the one asked for by the environment, warnings otherwise.", "quantifier": "all colour maps, resolutions, places, limits, quantities and environments", "why_tests_cant": "Tests compare a hash of one figure; the rounding of all colours and places cannot be enumerated.", "anchors": ["hadar/viewer/html.py:HTMLElementPlotting.matplotlib_to_plotly", "hadar/viewer/html.py:HTMLElementPlotting.map_exchange", "hadar/__init__.py"]}
{"id": "C93", "title": "An answer right up to a tolerance gives a result right up to that tolerance", "statement": "A solver works with floating point numbers and meets bounds and constraints up to a tolerance only. Its answer meets the program of a scenario up to e exactly when the result follows every law (capacities, balance, storage, converters) up to e. Where the laws can be followed, such a result is within a constant times e of one that follows them exactly and costs at most that much less than the least cost; the constant depends on the study and the scenario only. Where they cannot be followed, there is a positive tolerance below which no answer exists. The content of a storage misses the sum of its flows by at most the tolerance per step.", "quantifier": "all studies built by the API with usable converters, scenarios, tolerances and answers of the solver", "why_tests_cant": "Tests compare a few solves with integers; the effect of tolerances on all programs is a statement about all points of a polyhedron.", "anchors": ["hadar/optimizer/lp/optimizer.py:_solve_batch", "hadar/optimizer/lp/mapper.py:OutputMapper"]}
{"id": "C94", "title": "The API builds exactly the valid studies", "statement": "A study can be built with the API, by some sequence of calls on any selectors with any data, exactly when it is valid: positive dimensions, unique names, links and converters between nodes it has, values of the dimensions of the study with the checks of the methods met, and the cost of a converter given before its maximum. Whether a study is valid can be computed.", "quantifier": "all studies as data; all sequences of API calls with any arguments", "why_tests_cant": "Tests build a few studies; that no sequence of calls reaches anything else and that everything valid is reached is about all studies and all sequences.", "anchors": ["hadar/optimizer/domain/input.py:Study", "hadar/optimizer/domain/input.py:NetworkFluentAPISelector", "hadar/optimizer/domain/numeric.py:NumericalValueFactory"]}
{"id": "C95", "title": "A text is read as exactly the study it tells", "statement": "Study.from_json accepts a tree exactly when every object of it has the fields of its class and no other (names of consumptions and productions may be left out, other fields beside those of the study are not looked at), every value fits the dimensions, every source of a converter is written with one separator; and it returns the study with these contents. The studies that some text tells are exactly those with values of the right dimensions, complete converters and plain source names; each is told by its own text, so reading, writing and reading again changes nothing. Names, links and signs are not checked when reading.", "quantifier": "all JSON trees; all studies", "why_tests_cant": "The test reads back one study; which trees are refused and what all others give cannot be listed.", "anchors": ["hadar/optimizer/domain/input.py:Study.from_json", "hadar/optimizer/domain/input.py:InputNode.from_json", "hadar/optimizer/domain/input.py:Converter.from_json", "hadar/optimizer/domain/numeric.py:NumericalValueFactory.create"]}
{"id": "C96", "title": "A text is read as exactly the result it tells", "statement": "Result.from_json accepts a tree exactly when every object of it has the fields of its class and no other (names of consumptions and productions and the times of the benchmark may be left out), every quantity is written by nested lists of numbers of one shape, every source of a converter is written with one separator; and it returns the result with these contents. The results that some text tells are exactly those of filled arrays and plain source names; each is told by its own text, so reading, writing and reading again changes nothing. The result of a study is among them exactly when the sources of the study are plain.", "quantifier": "all JSON trees; all results; all studies built by the API, all answers of the solver", "why_tests_cant": "The test reads back one result; which trees are refused and what all others give cannot be listed.", "anchors": ["hadar/optimizer/domain/output.py:Result.from_json", "hadar/optimizer/domain/output.py:OutputNode.from_json", "hadar/optimizer/domain/output.py:OutputConverter.from_json", "hadar/optimizer/domain/output.py:Benchmark.from_json"]}
{"id": "C97", "title": "The titles tell what the figures show", "statement": "Every figure that is drawn names in its title the node and the element, the kind of data of a timeline and the time or the scenario it is about, and the unit on an axis. When no name has a space, two figures have the same title exactly when they are the same view of the same named element of the same named node at the same time or scenario (matrices: the same whole percentage). The title tells neither the network, nor the kind of data of a monotone or a gaussian, nor the scenario and the kinds of a stack, nor the limit of a map; figures with the same title that agree on these are the same figure. A name with spaces can give two different elements the same title, and the monotone of a converter is titled a timeline.", "quantifier": "all analyzers, requests, units and coordinates; all pairs of figures", "why_tests_cant": "The tests of the viewer compare hashes of a few figures; whether two figures of different data can share a title is a statement about all pairs.", "anchors": ["hadar/viewer/abc.py:ConsumptionFluentAPISelector.timeline", "hadar/viewer/abc.py:ConsumptionFluentAPISelector.monotone", "hadar/viewer/abc.py:StorageFluentAPISelector.candles", "hadar/viewer/abc.py:LinkFluentAPISelector.gaussian", "hadar/viewer/abc.py:NodeFluentAPISelector.stack", "hadar/viewer/abc.py:NetworkFluentAPISelector.rac_matrix", "hadar/viewer/abc.py:NetworkFluentAPISelector.map", "hadar/viewer/html.py:HTMLElementPlotting.timeline"]}
{"id": "C98", "title": "What a worker sends is read as exactly the steps it tells", "statement": "LPTimeStep.from_json accepts a tree exactly when every object below it has the fields of its class and no other (cost and name of consumptions and productions, cost of links, cost, initial capacity and efficiency of storages may be left out and are then 0, 0.99 for the efficiency, '' or 'in' for the name), in any order, each of its type; the keys of the sources are cut at each separator from the left. It returns the step with these contents. The steps that some tree tells are exactly those whose source keys are parts of texts. What a worker packs comes back whole exactly when the sources of the study are named plainly.", "quantifier": "all JSON trees; all steps; all studies built by the API, scenarios and answers of the solver", "why_tests_cant": "The tests send one step per class; which trees are refused and what all others give cannot be listed.", "anchors": ["hadar/optimizer/lp/domain.py:LPTimeStep.from_json", "hadar/optimizer/lp/domain.py:LPConverter.from_json", "hadar/optimizer/lp/domain.py:LPNode.from_json", "hadar/optimizer/lp/domain.py:LPStorage", "hadar/optimizer/lp/optimizer.py:solve_lp"]}
{"id": "C99", "title": "Names and the order of declarations do not change what a study costs", "statement": "Two studies that describe the same system - the same elements with the same values, under other names of networks, nodes, elements and converters, declared in another order, the first storage of each node staying the first - can be dispatched at the same costs: every dispatch of one that obeys the laws is matched by one of the other at the same cost, so one can be solved exactly when the other can and their optimal costs are equal. Only the order of the storages of a node matters.", "quantifier": "all pairs of studies built by the API, pairs of scenarios, renamings and reorderings; all answers of the solver", "why_tests_cant": "The tests solve each study under one choice of names and one order; the orders and names of a study cannot be listed.", "anchors": ["hadar/optimizer/lp/optimizer.py:AdequacyBuilder", "hadar/optimizer/lp/optimizer.py:ObjectiveBuilder", "hadar/optimizer/lp/optimizer.py:StorageBuilder", "hadar/optimizer/lp/optimizer.py:ConverterMixBuilder", "hadar/optimizer/lp/mapper.py:InputMapper"]}
{"id": "C100", "title": "What a user reads of a solved study is what was declared and what the solver gave", "statement": "For every study built by the API, every answer of the solver and every query written in the fluent interface over a network, a node, an element, times and scenarios in any order: the query ends with IndexError exactly when its first argument selects nothing or a single existing cell is asked for; otherwise the data hold exactly one line per declared element, scenario and time wanted, in the order of the labels, with the declared costs and quantities and, as used, given, capacity and flow, the values that the solver gave to the variables of that element at that scenario and time. This holds for consumptions, productions and links; for storages it holds when the study has at most one, for destinations of converters when there are at least as many sources as converters, for sources when each converter has at most one.", "quantifier": "all studies built by the API, answers of the solver, completion orders of the workers, contents of uninitialised memory, and queries", "why_tests_cant": "The tests compare the tables and the queries of one study at a time with a result written by hand; they never go from the answer of the solver to what is read.", "anchors": ["hadar/analyzer/result.py:ResultAnalyzer", "hadar/analyzer/result.py:NetworkFluentAPISelector", "hadar/optimizer/lp/optimizer.py:solve_lp", "hadar/optimizer/lp/mapper.py:OutputMapper"]}
{"id": "C101", "title": "Telling consumptions or productions of one price together or apart does not change the cost", "statement": "Take two studies that differ only in that, in every node, each consumption (production) of the one belongs to a consumption (production) of the other at the same price, whose quantity at each time is the total of those that belong to it. If no quantity of the finer study is negative, each dispatch of the one that meets all constraints is matched by a dispatch of the other of the same cost, and both cost the same when solved by an optimal solver.", "quantifier": "all pairs of studies built by the API, groupings, scenarios, dispatches, and optimal answers", "why_tests_cant": "The tests never solve one system told in two ways, and cannot cover all groupings.", "anchors": ["hadar/optimizer/lp/optimizer.py:ObjectiveBuilder", "hadar/optimizer/lp/optimizer.py:AdequacyBuilder", "hadar/optimizer/lp/mapper.py:InputMapper"]}
{"id": "C102", "title": "Elements of nothing change nothing", "statement": "Take two studies that differ only in that the second declares, after the elements of the first, consumptions and productions of quantity zero, links of capacity zero, converters of maximum zero, and storages that are empty at first and of capacity, inflow and outflow zero. Each dispatch of the one that meets all constraints is matched by a dispatch of the other of the same cost, and both cost the same when solved by an optimal solver.", "quantifier": "all pairs of studies built by the API, scenarios, dispatches, and optimal answers", "why_tests_cant": "The tests never compare a study with itself extended, and cannot cover all places and prices of elements of nothing.", "anchors": ["hadar/optimizer/lp/optimizer.py:ObjectiveBuilder", "hadar/optimizer/lp/optimizer.py:AdequacyBuilder", "hadar/optimizer/lp/optimizer.py:StorageBuilder", "hadar/optimizer/lp/optimizer.py:ConverterMixBuilder"]}
{"id": "C103", "title": "What a study costs is bounded", "statement": "When no price is negative, no dispatch that meets all constraints costs less than nothing. When the initial content of the first storage of each node fits at all times, an optimal solver never gives a cost above that of serving nothing: the price of all loads, and of keeping these contents. A study of the first times only, which has there at least what the whole study offers at most at the same prices, never costs more than the whole study when no later price is negative.", "quantifier": "all studies built by the API, scenarios, horizons, prices, answers that meet the constraints and optimal answers", "why_tests_cant": "The tests compare costs with numbers computed by hand for a few studies; none bounds the cost of a study, or compares a study with its beginning.", "anchors": ["hadar/optimizer/lp/optimizer.py:ObjectiveBuilder", "hadar/optimizer/lp/optimizer.py:StorageBuilder", "hadar/optimizer/lp/optimizer.py:solve_lp", "hadar/analyzer/result.py:get_cost"]}
{"id": "C104", "title": "Solving in stages", "statement": "Cut a study at a time into two studies, of the times before and of the times from there on, where the storages of the second start with what the result of the first says they hold at its end. Solving both is never cheaper than solving the whole study at once. And what an optimal dispatch of the whole study costs from that time on is what the second study costs when its storages start with what they hold in that dispatch.", "quantifier": "all studies built by the API, times to cut at, scenarios of each study, answers that meet the constraints and optimal answers", "why_tests_cant": "No test cuts a study in time; the claim compares optima of three studies for all data and all answers.", "anchors": ["hadar/optimizer/lp/optimizer.py:StorageBuilder", "hadar/optimizer/lp/optimizer.py:ObjectiveBuilder", "hadar/optimizer/lp/optimizer.py:AdequacyBuilder", "hadar/optimizer/lp/optimizer.py:solve_lp"]}
{"id": "C105", "title": "A study keeps what it was told", "statement": "What a study tells does not change when the caller goes on using the data they passed: numbers, lists, Series, DataFrames or numpy arrays. So no datum that was checked when it was declared becomes one that would have been refused.", "quantifier": "all sessions of declarations and of writes into arrays of the caller, for all arrays, shapes and studies", "why_tests_cant": "No test writes into an array after passing it; whether the study changes depends on which object is kept, for every kind of data and every place it can be declared at.", "anchors": ["hadar/optimizer/domain/numeric.py:NumericalValueFactory.create", "hadar/optimizer/domain/input.py:Study.add_link", "hadar/optimizer/domain/input.py:Study._add_production", "hadar/optimizer/domain/input.py:Study._add_consumption", "hadar/optimizer/domain/input.py:Study._add_storage", "hadar/optimizer/domain/input.py:Study._add_converter_src", "hadar/optimizer/domain/input.py:Study._set_converter_dest"]}
{"id": "C106", "title": "A figure shows the numbers of what was asked for", "statement": "Every figure asked for through the fluent interface of a plotting shows exactly the numbers of the study or the result that its selectors name: of this network, node, element, kind of data, scenario or time. What the study does not have is never shown with the numbers of something else.", "quantifier": "all studies made through the API, all results that mirror them, all networks, nodes, elements, kinds, times, scenarios, coordinates and limits", "why_tests_cant": "The tests of the viewer mock the analyzer and compare calls; they never follow a number from the result to the figure for all elements and indices.", "anchors": ["hadar/viewer/abc.py:ConsumptionFluentAPISelector", "hadar/viewer/abc.py:ProductionFluentAPISelector", "hadar/viewer/abc.py:LinkFluentAPISelector", "hadar/viewer/abc.py:SrcConverterFluentAPISelector", "hadar/viewer/abc.py:DestConverterFluentAPISelector", "hadar/viewer/abc.py:StorageFluentAPISelector", "hadar/viewer/abc.py:NodeFluentAPISelector", "hadar/viewer/abc.py:NetworkFluentAPISelector"]}
{"id": "C107", "title": "Across a free and wide connection it does not matter on which side elements stand", "statement": "Two nodes of a network are joined both ways by links that cost nothing and can carry all that may come to their source. Then telling some consumptions and productions at the one node rather than at the other changes neither which total costs can be reached nor the cost of the best dispatch.", "quantifier": "all pairs of studies made through the API that differ so, whatever else they hold (storages, other links, converters, other networks), all horizons, scenarios, prices and quantities of either sign, all optimal answers of the solver", "why_tests_cant": "A test compares two studies of fixed numbers; the equality is between the optima of two different programs for every choice of numbers and of what else the study holds.", "anchors": ["hadar/optimizer/lp/optimizer.py:AdequacyBuilder", "hadar/optimizer/lp/optimizer.py:ObjectiveBuilder", "hadar/optimizer/lp/optimizer.py:solve_lp"]}
{"id": "C108", "title": "Solving checks the places that reading does not", "statement": "Reading a study from a text makes none of the checks of the building methods. Solving makes some of them: a study has a result only if each of its links leads to a node of the same network, each converter takes from and gives to nodes that are there, has a cost and a maximum, and no ratio of it is null. Conversely a study that was read and meets these conditions is built and solved in every scenario without an error.", "quantifier": "all studies (built or not by the API), all texts read, all answers of the solver, all orders of completion of the workers, all scenarios and times", "why_tests_cant": "A test sends one text with one wrong place; which studies are refused is a statement on all texts and on the order in which the builders look up constraints they made before.", "anchors": ["hadar/optimizer/lp/optimizer.py:AdequacyBuilder", "hadar/optimizer/lp/optimizer.py:StorageBuilder", "hadar/optimizer/lp/optimizer.py:_solve_batch", "hadar/optimizer/lp/mapper.py:InputMapper.get_conv_var", "hadar/optimizer/domain/input.py:Study.from_json"]}
{"id": "C109", "title": "The linear program of a study read from a text is the documented one", "statement": "A study read from a text need not be one that the building methods accept: names may repeat, quantities be negative. As long as its places are there and no node has two links to the same node, the points that satisfy its linear program are exactly the dispatches that follow the laws of C15, the objective is the total cost, and the solver's answer is optimal exactly when the result follows the laws and no such dispatch is cheaper.", "quantifier": "all texts and studies read from them, all scenarios, all results and points, all answers of the solver, all orders of completion", "why_tests_cant": "A test reads one text; the equivalence is between all points of a program and all dispatches, for studies outside what the API builds.", "anchors": ["hadar/optimizer/domain/input.py:Study.from_json", "hadar/optimizer/lp/optimizer.py:AdequacyBuilder", "hadar/optimizer/lp/optimizer.py:solve_lp"]}
{"id": "C110", "title": "A study read from a text has a cheapest dispatch and prices, or no dispatch at all", "statement": "Take a study read from a text whose places are there and in which no node has two links to the same node, names and signs being free. In each scenario either some dispatch that follows the laws is the cheapest, or none follows the laws. In the first case a solver can answer such that the result is the cheapest. The result tells whether the answer satisfied the program, and it is the optimum exactly when there are prices at which every element does its best; prices of one cheapest dispatch are prices of all.", "quantifier": "all texts and studies read from them, all scenarios, all dispatches, all answers of the solver, all orders of completion", "why_tests_cant": "A test solves one text with one solver; the existence of an optimum and of prices is over all studies, also those the API refuses.", "anchors": ["hadar/optimizer/domain/input.py:Study.from_json", "hadar/optimizer/lp/optimizer.py:ObjectiveBuilder", "hadar/optimizer/lp/optimizer.py:solve_lp"]}
{"id": "C111", "title": "The kinds of quantity a view can be asked for", "statement": "A view of a consumption can be asked for the kinds 'asked', 'given' and 'cost', one of a production or link for 'avail', 'used' and 'cost'. These kinds are drawn, and the cost shows the costs of the element. Any other kind is refused with a KeyError by timeline, monotone and gaussian, for every time and scenario.", "quantifier": "all studies the API builds, all results of their shape, all analyzers of them, all elements, all kinds, times and scenarios", "why_tests_cant": "Tests draw the default kinds only; the set of accepted kinds is a statement over all strings.", "anchors": ["hadar/viewer/abc.py:ConsumptionFluentAPISelector", "hadar/viewer/abc.py:ProductionFluentAPISelector", "hadar/viewer/abc.py:LinkFluentAPISelector"]}
{"id": "C112", "title": "The kinds of quantity the stacked view of a node can be asked for", "statement": "The stacked view of a node takes a kind for its productions and one for its consumptions. At a node with productions, a production kind other than 'avail', 'used' and 'cost' is refused with a KeyError; at a node with consumptions, a consumption kind other than 'asked', 'given' and 'cost' is refused. At a node without such elements the kind is not looked at: every kind gives the same view. A view that is drawn for some pair of kinds is drawn for exactly the pairs that are not refused so.", "quantifier": "all studies the API builds, all results of their shape, all analyzers of them, all nodes, scenarios and pairs of kinds, all orders that the sort by cost may leave", "why_tests_cant": "Tests draw the default pair of kinds on one study; which pairs are accepted depends on what the node has and is a statement over all strings.", "anchors": ["hadar/viewer/abc.py:NodeFluentAPISelector.stack", "hadar/viewer/abc.py:ABCPlotting"]}
