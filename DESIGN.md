# Formal model of hadar — design

Source under study: `/repo` (Python package `hadar`). Prover: Rocq/Coq 8.16.1,
standard library only. All files are in `rocq/theories/`.

## 1. Modelling conventions

* **Model the code that exists.** Each definition cites the Python lines it models.
  Known defects of the code are kept in the model. Where an expected property is
  false of the code, the file proves a `..._refuted` theorem with a concrete
  witness, and a `..._partial` theorem with the strongest version that holds.
* **Numbers.** Python `int`/`float` values (and numpy scalars) are rationals `Q`.
  Rounding, overflow, `NaN` and infinities of data are not modelled. `NaN` appears
  only where pandas introduces it (missing cells).
* **Strings** are Coq `string`s; only concatenation, equality, ordering and
  `split("::")` are used.
* **Python dicts** are insertion-ordered association lists (`dget`, `dset`);
  `dset` overwrites in place or appends, as CPython does.
* **numpy arrays** are a shape (list of sizes) plus the row-major data.
* **pandas frames** (analyzer) are named columns of cells; (workflow) a row index
  plus labelled columns. Only the operations used by the code are modelled.
  `np.empty` content is an arbitrary function, universally quantified.
* **Exceptions** are values: `res A := Ok a | Err e`. Functions with side effects
  return the state reached when the exception is raised, so partial updates are visible.
* **Object aliasing** that the code exhibits (selector dictionaries, index lists,
  plug output lists) is modelled with explicit heaps.
* **External parties** are universally quantified: the LP solver (any assignment,
  with feasibility/optimality as explicit hypothesis), the random generator (any
  draws), the HTTP server (any list of answers), worker scheduling (any order).

## 2. Files

| model file | Python source |
|---|---|
| `Base.v` | exceptions, dicts, list helpers |
| `Numeric.v` | `hadar/optimizer/domain/numeric.py` |
| `Study.v`, `Fluent.v` | `hadar/optimizer/domain/input.py` |
| `Json.v` | `to_json`/`from_json` of input.py, output.py, utils.py |
| `Output.v` | `hadar/optimizer/domain/output.py`, `lp/mapper.py` (output side) |
| `LP.v` | `lp/domain.py`, `lp/mapper.py`, `lp/optimizer.py` |
| `Transport.v` | `to_json`/`from_json` of `lp/domain.py`, packing and unpacking in `lp/optimizer.py` |
| `Remote.v` | `remote/optimizer.py` |
| `Analyzer.v` | `hadar/analyzer/result.py` (tables, queries, totals, costs, capacities) |
| `Frame.v`, `Pipeline.v` | `hadar/workflow/pipeline.py` and the pandas operations it calls |
| `Shuffler.v` | `hadar/workflow/shuffler.py` |
| `Viewer.v` | computations of `hadar/viewer/abc.py`, `html.py` |
| `Objects.v` | class DTO of `hadar/optimizer/utils.py` on the objects of input.py, numeric.py, output.py |
| `Text.v` | encoder of class JSON and texts of class DTO in `hadar/optimizer/utils.py`, with the exceptions of input.py and output.py |
| `Seed.v` | the generator of numpy as used by `hadar/workflow/pipeline.py`: reseeding by Stage.__call__, the seed of Fault, order of the draws |
| `Picture.v` | map_exchange and _plot_links of `hadar/viewer/html.py`, the time axis of ABCPlotting in `hadar/viewer/abc.py` |
| `Drawing.v` | axes, texts, opacity and colours of monotone, candles, timeline, stack and matrix in `hadar/viewer/html.py`; the percentage in the title of rac_matrix |
| `Settings.v` | `hadar/viewer/html.py` matplotlib_to_plotly and the colour range of circles, `hadar/__init__.py` log level |
| `LPNear.v` | no code: points nearly meeting linear inequalities |
| `Shared.v` | `create` of `numeric.py` and the building methods of `input.py` again, with the arrays of the caller as objects |
| `Titles.v` | figures with title, names of axes and content: the selectors of hadar/viewer/abc.py and the layouts of hadar/viewer/html.py |

Specifications, written without the helpers of the model: `SpecNumeric`, `SpecStudy`,
`SpecJson`, `SpecReach`, `SpecRead`, `SpecReadResult`, `SpecReadStep`, `SpecLP`, `SpecRename`, `SpecGather`, `SpecStack`, `SpecHollow`, `SpecPlace`, `SpecWhere`, `SpecBounds`, `SpecRolling`, `SpecShared`, `SpecFigures`, `SpecRemote`, `SpecAnalyzer`, `SpecEnd`, `SpecTotals`, `SpecWorkflow`,
`SpecShuffler`, `SpecViewer`, `SpecObjects`. Lemmas are in `*Facts.v` and `LP*.v`. The theorems are in
the `P_*.v` files, each followed by `Print Assumptions` and accompanied by an `Example`
that meets the hypotheses on a concrete case:

| file | claims |
|---|---|
| `P_Numeric` | C01–C04 |
| `P_Study` | C05–C10, C63 |
| `P_Json` | C11–C14 |
| `P_LP` | C15–C19, C26–C29 |
| `P_Opt` | C20–C25 |
| `P_Remote` | C30–C32 |
| `P_Tables` | C33–C35 |
| `P_Exact` | C34, C35 (exact contents), C67 |
| `P_Query`, `P_Reuse` | C36–C39 |
| `P_Totals`, `P_Cost` | C40–C43 |
| `P_Plugs` | C44, C46, C47 |
| `P_Stages`, `P_Focus` | C48–C53 |
| `P_Run` | C45, C56 |
| `P_Shuffler` | C54, C55, C66 |
| `P_Viewer` | C57, C61, C62 |
| `P_Map` | C58, C60, C64 |
| `P_Stack` | C59, C65 |
| `P_CostExact` | C41 with any number of storages |
| `P_Timeline` | C61 for any analyzer, whatever its tables hold |
| `P_Objects` | C68 |
| `P_Hash` | C69 |
| `P_Seed` | C70 |
| `P_Picture` | C71, C72 |
| `P_Law` | C15, C20, C21 (exact laws, every study) |
| `P_Solvable` | C21 (when there is no solution) |
| `P_Accept` | C73 |
| `P_More` | C74 |
| `P_Units` | C75 |
| `P_Parts` | C76, C77 |
| `P_Text` | C78, C79 |
| `P_Compare` | C80 |
| `Optimum`, `LPPrice`, `LPMarket`, `P_Optimum` | C81: elimination of variables, existence of an optimum |
| `P_Prices` | C82 |
| `P_Free` | C83 |
| `P_Margin` | C84 |
| `P_Absent` | C85 |
| `P_Transport` | C86 |
| `P_Drawing` | C87 |
| `P_Status` | C88 |
| `P_Saving` | C89 |
| `P_Routes` | C90 |
| `P_Mean` | C91 |
| `P_Settings` | C92 |
| `P_Near` | C93 |
| `P_Reach` | C94 |
| `P_Read` | C95 |
| `P_ReadResult` | C96 |
| `P_Titles` | C97 |
| `P_ReadStep` | C98 |
| `P_Rename` | C99 |
| `P_EndToEnd` | C100 |
| `P_Gather` | C101 |
| `P_Hollow` | C102 |
| `P_Bounds` | C103 |
| `P_Rolling` | C104 |
| `P_Shared` | C105 |
| `P_Figures` | C106 |
| `P_Place` | C107 |
| `P_Where` | C108 |
| `P_ReadModel` | C109 |
| `P_ReadBest` | C110 |
| `P_Kinds` | C111 |
| `P_StackKinds` | C112 |
| `P_Plain` | C11, C12, C13, C32 (exactly which names come back) |
| `P_Repeat` | C51: which frames are accepted, where the columns go, which layouts come out right |
| `P_Links` | C46: exactly which stages `+` and the constructor accept |
| `P_Order` | C37: what becomes of every query; which orders of the axes agree |
| `P_Selectors` | C09: where an element added through a node selector lands; which selectors share a dictionary |
| `P_Refused` | C05, C07 and C10 exactly: which signs are refused, what refused calls leave and spoil, which selectors can be continued |
| `P_Lines` | C38: what every call of any program of queries sees; which calls see their own query |
| `P_Names` | C16, C19, C27, C29 for all names: which studies are answered, where the flow of each source is written, where the laws hold |
| `P_Evolve` | C18, C28 exactly: which storages evolve, when a network conserves energy |
| `SpecStack` | specification of the stacked view with any number of storages |
| `P_StackAll` | C59, C65 for nodes with any number of storages |
| `P_Alone` | C47: exactly which operations leave alone what is there |
| `P_Inputs` | C44, C53, C54: what a stage is made of and given, what the shuffler reads |
| `P_Nothing` | C102, told by calls |
| `T_Domain`, `T_LP`, `T_Solve`, `T_Analyzer`, `T_Workflow` | the tests of the repository, see section 6 |

## 3. Properties

| id | what is modelled | how it is proved |
|---|---|---|
| C01 | `create` on numbers, nested lists, arrays of any rank; `__getitem__` of the four classes | case analysis on accepted shapes, index arithmetic |
| C02 | `flatten` (ones*v, tile, repeat, row-major copy) | list-index lemmas for tile/repeat by induction |
| C03 | shape tests of `create` in code order | characterisation of success as an iff |
| C04 | `__getitem__` bounds tests, numpy indexing with Python negative wrap-around | case analysis; negative indices: refuted for uniformity |
| C05 | `__lt__`/`__gt__` with `np.all`, validation in `_add_*` | scalar case proved; array case refuted by witness, exact characterisation proved |
| C06 | all building calls as a step function with partial effects on error | invariant by induction over call sequences |
| C07 | state returned with the exception | equality of states for each call kind; refuted for converter calls |
| C08 | same | frame theorem against a lookup specification |
| C09 | heap of selector dictionaries | linear chaining proved; interleaving refuted by witness |
| C10 | same | invariant on node selectors; network selector after `.converter()` refuted |
| C11 | JSON trees, `to_json`/`from_json` of Study | structural induction under name condition; refuted for names with `::` |
| C12 | `"::".join`, `split("::")` | exact iff characterisation; collision witness |
| C13 | JSON of Result | as C11 |
| C14 | `from_json` returning the tree it leaves behind | Study: unchanged; Result: refuted by witness |
| C15 | `_solve_batch` building the program with NumVar/Constraint/SetCoefficient | invariant of the builders, equivalence with the documented model `SpecLP.v`; for every study, with the exact laws of `P_Law.v` |
| C16–C19 | solve + output mapping | corollaries of C15 on the Result; refuted for self-links and second storages |
| C20 | solver optimum as hypothesis | encode any admissible dispatch as an assignment, use C15 |
| C21 | feasibility of the program | explicit feasible dispatch (shed everything, keep storages); refuted when the initial content exceeds the capacity; exact condition in `P_Law.v` when the first storage of each node fits; `P_Solvable.v`: exact condition for every study by prices that refuse it (the elimination of `Optimum.v` gives the prices), and step by step (least and most content) for studies without links and converters |
| C22–C25 | optimum as hypothesis | exchange arguments on the documented model |
| C26 | program as function of the study | equality of programs built from studies agreeing on the scenario |
| C27 | output mapping over scenarios and times, worker order | induction over the set loops; permutation of completions |
| C28 | sums over nodes | exchange of sums over links |
| C29 | key text encoding in the worker answer | proved under name condition, refuted with `::` |
| C30–C31 | polling loop over any list of server answers | induction over the list |
| C32 | composition | C11 + C13 + C30 |
| C33–C35 | table construction with slices and length checks | offset arithmetic; storage and source-converter defects refuted |
| C36–C37 | filter, pivot (group, mean, sort), index-level removal | uniqueness of keys implies groups of size one |
| C38 | shared index list of a selector | refuted by witness, fresh chains proved |
| C39 | slice handling | closed slices proved, open ones refuted |
| C40–C43 | aggregations | sums over the tables, reuse of C33 |
| C44–C47 | plugs on a heap of lists | algebra, invariant over links; constructor and aliasing defects refuted |
| C48–C53 | stages on frames | per-cell statements |
| C54–C55 | shuffler | all draws, all schedules |
| C56 | caller frame in the state | frame theorem |
| C57 | candle view of a storage | induction over time on the cumulated sum for the last storage; every other storage proved not drawn |
| C58 | exchange map | invariant of the double loop over sources and destinations |
| C59, C65 | stacked view | one layer per element for any order of equal costs; heights are sums, compared with the nodal balance C16; rows of the tables that are wrong or never written (`unwritten`) are proved to be left out by the query |
| C60, C64 | remaining-capacity matrix and its title | exact condition for the drawing to succeed; counting |
| C61 | monotone and timeline views | sorting is a permutation; the rows fetched are the values |
| C62 | gaussian views | rows of one scenario; converter query refuted |
| C63 | naming a network or node again | frame theorem over the whole state |
| C67 | acceptance by the analyzer | exact offsets of every write, first write that does not fit |
| C66 | histories of the shuffler | invariant by induction over the calls |
| C68 | `==` on trees of objects whose arrays carry identities | structural induction; every layer decides sameness; the array case refuted |
| C69 | `hash` of sorted attributes | sorted lists with distinct keys are unique up to permutation |
| C70 | the generator as an arbitrary state machine; each stage seeds it from entropy, Fault per scenario from its seed | the result of a seeded stage does not read the state; one draw for all scenarios; seed 0 refuted |
| C71 | the picture as points, shades and texts over the numbers of `map_view` | geometry by `field`; the colour scale by cases on the limit; three witnesses |
| C72 | dates as whole nanoseconds | division with remainder, both roundings |
| C73 | building calls of `Study` and both selectors | one equivalence per method, by following the monadic code |
| C74 | optima of two programs | the dispatch of the first study with nothing on what is new satisfies the second program and is not dearer there |
| C75 | programs of two studies that differ by units | multiplying every variable by the factor maps one program onto the other |
| C76 | a program and those of its parts | each constraint and cost belongs to one part; a converter of the other part has no coefficient in a node of this one |
| C77 | results without storages | the variables of one time can be replaced alone |
| C78 | every study, result and object | the general encoder run on the objects of a study or result gives the encodings of C05 and after |
| C79 | every object and all printers of leaves | texts given exactly; a text is cut at its first or last parenthesis and equal sign to get the data back |
| C80 | every value of the factory, at least one time and scenario | `<`, `>` mean all cells; `<=`, `>=` mean one cell |
| C81 | studies of the API with usable converters, each scenario | optimum or no solution; over rational quantities |
| C82 | studies of the API with usable converters, each scenario | prices exist exactly for the cheapest dispatches; for the laws of the program, not the documented ones |
| C83 | every history of creating and linking | invariant: lists of free plugs are empty and no plug with a contract appends to them |
| C84 | all pairs of studies differing in quantities | the cost is the sum over parts of charged cost (C82); each part compared with its best at the prices |
| C85 | all studies, names, integers | every row of a table is of an element, time and scenario of the study, so the query keeps none |
| C86 | all studies, answers, orders of workers | reading is the inverse of writing class by class; the written result is the one of `LP.v` |
| C87 | all lists of values, API studies, results | ranks in a sorted list; whole parts; refuted for candles of a storage that fills |
| C88 | all API studies, answers, orders of workers | solvability as existence of a lawful result (C15), optimum or nothing (C81); refuted: the status is ignored |
| C89 | all API studies with plain source names, optimal answers, storages, times | each statement is a direction in which the plan of a storage could move, which earns nothing at the prices of C82 |
| C90 | all API studies with plain source names, optimal answers, routes of any length, converters with positive ratios | the prices of C82 differ along a link by at most its cost unless it is full, at least unless it is idle; summed by induction on the route |
| C91 | all API studies, weights, answers | the program is linear with the same coefficients in all scenarios, so the mean of solutions is one; the cost is linear in the prices |
| C92 | all colour maps, resolutions, limits, quantities | whole parts of rationals; one formula for both places |
| C93 | all api studies, scenarios, tolerances, answers | elimination of variables with a parameter for the distance: every derived inequality is nearly met where the given point stands |
| C94 | all studies | `->` invariant of runs; `<-` a sequence of calls is given that builds the study network by network, node by node, then the converters; `validb` is proved equivalent |
| C95 | all trees, all studies | a relation between trees and studies, field by field (`SpecRead.v`); each reader is proved equivalent to its relation in spite of the changes it makes in the tree |
| C96 | all trees, all results | a relation between trees and results (`SpecReadResult.v`), with nested lists described by their shape; each reader is proved equivalent to its relation |
| C97 | all analyzers, requests, units, pairs of figures | titles are lists of words, from which the request is decoded up to what is not told |
| C98 | all trees, steps, studies | a relation between trees and steps (`SpecReadStep.v`); each reader is proved equivalent to its relation |
| C99 | all pairs of studies, scenarios, names, orders | positions of both studies are matched by permutations; answers are carried from one to the other (`back`); the renaming is inverted for the other direction |
| C100 | all API studies, answers, orders of workers, memory contents, queries | the tables are faithful (C33-C35), the answers of queries are their rows (C36, C37), the results carry the answer (C27); places and rows are put in bijection; rows without scenario are shown not to count |
| C101 | all pairs of API studies, groupings, scenarios, dispatches, optimal answers | variables are added up by group one way, shared out in proportion to quantities the other way; sums are exchanged; constraints and cost are carried over on the exact reading of the program |
| C102 | all pairs of API studies, scenarios, dispatches, optimal answers | new variables are forced to zero by their bounds; sums over appended lists are compared term by term on the exact reading of the program |
| C103 | all API studies, scenarios, horizons, answers | costs are split by time on the exact reading of the program; the dispatch that serves nothing and the dispatch cut to the first times are shown to meet the constraints |
| C104 | all API studies, cuts, scenarios, answers | constraints and costs are split by time; the constraints of one time are carried from a time of one study to a time of another; dispatches are glued and sliced |
| C105 | all sessions of declarations and writes | the methods with references, read in a memory, are the methods with values; data held come from what is passed |
| C106 | all API studies, mirrored results and requests | composes the tables, the queries, the views and the figures (C57, C58, C60, C61, C62, C65, C71, C85) |
| C107 | all pairs of API studies that differ by the side of a free and wide connection | the programs of both are compared through C15 |
| C108 | all studies, all texts | studies that were read need not be ones the API would build; their dictionaries have each key once |
| C109 | all studies read from a text | the laws are those of C15; the program is described by what `laid` asks, which is less than what the API gives |
| C110 | all studies read from a text | laws of C15, prices of C82; `laid` suffices for LPPrice and LPMarket |
| C111 | all API studies that can be analysed | the element is one of the study; views of elements it does not have are in C85 |
| C112 | all API studies that can be analysed | the node and the scenario are of the study; the wrong consumption kind is refused with some error, which is not always that of the kind since other parts are read first |

Not modelled at all: the plotly objects of the figures (their values, axes, labels and
colours are: C57 to C65, C71, C72, C85, C87, C92; their titles: C97), what is logged, progress bars, timing
values, process start-up, the interior of the LP solver, msgpack byte layout (an
identity on the trees used), floating point rounding.

## 4. Trusted base

* The Coq kernel (and `coqchk`).
* The correspondence between the Python text and the model definitions (each cites
  its lines) and the conventions of section 1.
* `Print Assumptions` is run under every final theorem. Every theorem named in
  `MANIFEST.json` prints "Closed under the global context": no axiom, neither of our
  own nor of the standard library, is used anywhere.

Behaviour of libraries assumed by the model, besides plain Python and numpy:

* pandas below version 2. `df.loc[mask, cols] = array` either broadcasts or wants equal
  lengths, depending on the version: the tables are proved for both (`bcast`).
* `frame.drop(names, level=1)` raises `KeyError` if nothing is removed; `clip` exchanges two
  scalar bounds given in the wrong order; `frame[scn] = value` aligns rows and columns by
  label and, from version 1.3 on, wants equal numbers of columns (`strict`, both cases
  proved); reindexing on duplicate labels raises; an empty pivot keeps its named levels and columns;
  `sort_values` may leave equal keys in any order (universally quantified);
  `pivot_table` groups, takes the mean and sorts the keys.
* `np.empty` contains anything. `randint`, `choice` answer anything legal; in `Seed.v` they are
  functions of the state of one generator, which `seed` sets and refuses outside of 32 bits.
* `multiprocessing.Pool.map` distributes tasks in any way, finishes them in any order,
  returns results in the order of the tasks and raises the first failure. A generator
  travels with its state in each chunk.
* `==` of Python: an object found twice in two containers is taken as equal to itself without
  being compared; dictionaries are compared by length and then key by key, the two values in
  either order (`swap`); an array has a truth value only with one entry; arrays that do not
  broadcast compare to False or raise, depending on the version (`old`, both proved).
* The solver returns any assignment (`answer`). What needs a feasible or an optimal one
  says so in its hypotheses.
* `msgpack`/JSON transport of the remote optimizer keeps trees as they are, the HTTP server
  answers anything.

Not covered: the correctness of the transcription itself, floating point (sums are exact
rationals, so balances hold exactly where floats hold them up to rounding), performance,
the rendering of the pictures.

## 5. Wrong programs

`seeded/LOG.jsonl` records the wrong programs tried: one definition of the model edited in
a copy of the development, everything rebuilt. `build_stopped_at` is the lemma at which each
file stopped; `theorems_failed` lists these lemmas and nothing else. Since Coq leaves a file
at its first error and skips the files that need it, the other theorems of the claim were
not tried: they are in `claim_theorems_not_checked`, and may hold or fail. A stop shows that a
proof broke, which does not by itself show that its statement is false. (Until
2026-11-15 `theorems_failed` wrongly included the theorems not checked; the entries were
corrected from `build_stopped_at`, after replaying those that lacked it.) When a wrong program left the *statement* of a theorem true (even if its proof
script broke), the theorem was strengthened; see `theorems_tightened` and `note`.

## 6. The tests of the repository

The model was written by reading. To check it, the tests under `/repo/tests` are replayed on
it in `T_*.v`: the same calls on the same data must give the values the tests expect. They are
Examples, used by no theorem.

| file | tests |
|---|---|
| `T_Domain` | `optimizer/domain/test_numeric.py`, `test_input.py`, `test_output.py` |
| `T_LP` | `optimizer/lp/test_mapper.py`, `test_optimizer.py` except `test_solve`, which tests its own mocks |
| `T_Solve` | `optimizer/it/test_optimizer.py`, `optimizer/remote/test_optimizer.py` |
| `T_Analyzer` | `analyzer/test_result.py` |
| `T_Workflow` | `workflow/test_pipeline.py`, `test_shuffler.py`, `test_integration.py` |

The integration tests expect the values of one run of the solver. Here more is shown: an
optimum exists, and every optimal answer, whatever the order of the workers, gives the
expected result (`solves_to`). Not replayed: `viewer/test_html.py`, which compares hashes of
HTML texts, and the numbers of `TestFault`, which depend on one seed of numpy (the stage is
tried with given draws instead). The thousand hours of the integration test of the pipeline
are six here.
