# Formal model of ALIGN-public in Rocq

Source: `/repo` (python part of ALIGN, pinned commit). Model: `rocq/theories`.
Build: `coq_makefile -f _CoqProject -o Makefile && make -j4` in `rocq/` (Coq 8.16.1).

## 1. Method

* `Model/*.v`: shallow Gallina definitions that follow the python functions branch by
  branch. Every definition cites the file and lines it models and says what is simplified.
  Python exceptions and failed `assert`s are values (`None` / an error constructor); they
  are never turned into ordinary results. Recursion that is not structural carries fuel;
  theorems then say which amount of fuel suffices, so that "out of fuel" does not hide
  behind a hypothesis.
* `Spec/*.v`: small specifications written without the helpers of the model
  (point sets, relations, sums, paths, flat netlists).
* `Proofs/*.v`: lemmas. `Props/Cnn.v`: the theorems for property Cnn, each with
  `Print Assumptions` and with an `Example …_nonvacuous` that meets the hypotheses on a
  concrete, non-trivial case.
* Integers are `Z` (python ints are unbounded; `//` and `%` are floor division, i.e.
  `Z.div`/`Z.modulo`). Floating point numbers are exact rationals where they occur, or left
  out; where rounding matters it is modelled explicitly (`int`, `round`, `math.ceil`).
* Iteration over a python `set` is modelled by an arbitrary enumeration and the theorems hold
  for every enumeration, except where section 3 says that the first element is taken.
* Functions of other packages (the ILP solver, z3, hash functions, networkx) are section
  variables or record fields with the contract stated as a hypothesis, never axioms.
* If the full statement is false of the faithful model, the theorem
  `..._refuted` gives a concrete counterexample (a finding about the code) and the
  strongest statement that does hold is proved separately.

## 2. Approach per area

| Area | Model | Proof |
|----|-------|-------|
| C01-C04, C55 | transformations, rectangles, placement of blocks | ring / lia on the two axes |
| C05-C08, C46-C48 | canvas, grids, stop points, joining wires, dropping vias | induction over sorted lists and programs, div/mod uniqueness |
| C09-C13 | scan lines, union-find, duplicate removal | fold invariants relating the output to the covered point set and the nets |
| C14-C17 | design rule checks, parasitic extraction | list induction, binary search invariant |
| C18-C20, C28, C29 | HPWL and module tables | induction over the hierarchy, rank of an acyclic graph |
| C21, C22 | grid constraints | modular arithmetic, induction over the hierarchy |
| C23-C27, C49-C52 | sequence-pair placer: constraints posted to the solver as a predicate on assignments | arithmetic, permutations |
| C30-C36 | netlist passes of the compiler | flat netlist (`device_of`) preserved; simulation invariants over the library |
| C37-C39, C53, C54 | constraint database, solver formulae, checks | induction over histories; formulae as predicates over boxes |
| C40-C45 | scaling, routing names, transistor arrays, LEF and GDS output | arithmetic, character-level parsing |
| C56 and later | see section 6 | |

## 3. What is modelled

One entry per model file: what it covers, and every simplification stated in it.

* `Model/AStar.v` — The path search of the detailed router (PlaceRouteHierFlow/router/A_star.cpp), for a single track (left_up = right_down = 0), which is how GcellDetailRouter.cpp:459 and :1380 call FindFeasiblePath_sym for the signal nets. Simplifications: a cost (double) is an exact rational, and DBL_MAX/INT_MAX as a cost is [None]; a node is the index in vertices_total, and -1 as an index is [None]; an index outside of the grid (undefined behaviour) is a default vertex here and excluded by the hypothesis of the theorems; only the index of the via above a metal, which is -1 for the highest metal, is a real lookup. The drc_info is given by functions of the metal.
* `Model/AbstractName.v` — Names of primitives: align/compiler/util.py:154-165 (gen_key) and align/compiler/gen_abstract_name.py:84-140 (create_subckt, gen_primitive_def, add_primitve).
  * Simplified: the models of the elements of a copied subcircuit, which are appended before it, are given by [deps].
  * Simplified: the elements of all circuits in one list, no GroupCaps.
* `Model/AdrLayers.v` — align/schema/pdk.py:106-119 and 191-250: the layers of a pdk, their electrical connections and the levels written for the detailed router.
  * Simplified: the names f'M{i}' and f'V{i}' are numbers, other names strings; of a metal layer only its direction is kept, of a via its stack.
* `Model/ArrayHier.v` — Hierarchies for arrays (compiler/create_array_hierarchy.py:234-256, 273-279).
* `Model/ArraySearch.v` — Search for arrays of repeated parts (compiler/create_array_hierarchy.py:84-204).
* `Model/Canvas.v` — Model of parts of align/cell_fabric/canvas.py and generators.py.
  * Simplified: net name, layer and type are a single tag.
* `Model/CanvasEdit.v` — Editing a canvas along its scan lines: joining wires and dropping vias (cell_fabric/canvas.py).
* `Model/CapPlace.v` — The common-centroid placement of unit capacitors: capplacer.cpp. Numbers of rows and columns are integers held in doubles; distances are compared by four times their squares, which is the same order while they are less than 2 ^ 50 (the square root of doubles keeps small integers apart).
* `Model/CapRoute.v` — The lines chosen to route a common-centroid capacitor: Router_Cap and found_neighbor, capplacer.cpp:745-1008, and the tracks of the wires on these lines, capplacer.cpp:1127-1200, 1407-1421. Only the vertical lines are modelled: the horizontal ones (818-848, 867-884) are not used. Capacitors are numbers, with their places given by [P]; no capacitor is in two nets (C103_counts), so each net has its own marks [access]. Vectors of 0 and 1 over the lines 0 .. r are functions; line [l] is the channel to the left of column [l].
* `Model/ChargeFlow.v` — The [ChargeFlow] part of [PnRConstraintWriter.map_valid_const], align/pnr/write_constraint.py:51-56, 179-232.
  * Simplified: floats are rationals; root mean squares are kept squared, so [math.sqrt] is absent and the scale is the square of [maxrmsc]; the dictionary key [f'{src},{snk}'] is the pair.
* `Model/ConstraintDB.v` — The constraint database: lists with checkpoints, the duplicate cache and the incremental solver behind it (schema/types.py, schema/constraint.py, schema/checker.py, schema/subcircuit.py).
* `Model/DefaultCanvas.v` — The layers of a PDK (cell_fabric/pdk.py) and the wires and vias built from them (primitive/default/canvas.py, primitive/default/via.py, cell_fabric/postprocess.py, cell_fabric/grid.py:106-117).
  * Simplified: directions are in lower case already (106).
  * Simplified: only layers called M.. have the fields of metals and only those called V.. the fields of vias.
  * Simplified: the attribute is named by the layer, not by its name in lower case.
  * Simplified: without [ViaCut].
* `Model/DefineSD.v` — Source and drain of transistors (compiler/preprocess.py:147-268 [swap_SD], [define_SD]; compiler/util.py:19-76).
  * Simplified: parameters and the names of elements are not read.
  * Simplified: a model that is not in the library is its own base (the code asserts); the recursion is bounded by the number of models, the hierarchy having no cycles.
  * Simplified: instance names and net names are kept apart.
  * Simplified: in the order of [a]; python's order is arbitrary.
* `Model/DetailGrid.v` — Model of PlaceRouteHierFlow/router/Grid.cpp:3140-3553 (the constructor used by the detailed router, GcellDetailRouter.cpp:1039) and of Grid.cpp:270-304, 318-328 (the point lists that block nodes).
  * Simplified: [int] without overflow; [ceil(double(a) / b)] is exact; the grid of the global router is given by functions on the numbers of its tiles, all of them within the ranges of the vectors ([.at] would throw otherwise); [x_unit] of a vertical and [y_unit] of a horizontal metal are one function [unit], as the metals next to each other have different directions (otherwise the code divides by 0); [gridmetal], [GridLL] and [GridUR] are left out. Cost, parent and the fields of the search are in Model/AStar.v.
* `Model/Drc.v` — Model of align/cell_fabric/drc.py. Error messages are replaced by the data they print; the log output is omitted.
* `Model/FindSym.v` — Search for symmetric parts of a circuit (compiler/find_constraint.py:22-228).
* `Model/Formulas.v` — The formulae posted to the solver by constraints and by a module, over integer boxes (schema/constraint.py, schema/hacks.py, schema/subcircuit.py), and the placement check (pnr/checker.py).
  * Simplified: floats are rationals; [AlignInOrder], [Floorplan] and the other user constraints expand to these.
* `Model/GdsConv.v` — Conversion of layouts between JSON, GDSII records and text (gdsconv/json2gds.py, gds2json.py, json2txt.py, txt2json.py).
  * Simplified: text is ASCII; real numbers are a type [R] with python's [str] and [float] as parameters; a GDSII file is the sequence of its records, the library python-gdsii is trusted to store and load each of them unchanged (in particular its 8-byte reals, 2- and 4-byte integers and the padding of strings).
  * Simplified: no null and no booleans; the keys of an object are distinct.
  * Simplified: [None] for objects, nested lists and strings in lists, which no field of a layout holds.
* `Model/GlobalGraph.v` — Model of PlaceRouteHierFlow/router/GlobalGraph.cpp: the graph of tiles, the shortest paths and the Steiner trees of the global router.
  * Simplified: [double] distances and [int] weights are integers without overflow; the capacity that is copied into each edge and [Node::active] are never read and are left out. [None] is an exception or undefined behaviour (an index out of range, the first entry of an empty map).
* `Model/GlobalGrid.v` — Model of PlaceRouteHierFlow/router/GlobalGrid.cpp: the tiles of the global router, their capacities, and the tiles of a pin.
  * Simplified: [int] and [long] are integers without overflow; the tables of the design rules are functions of the number of the metal ([.at] of a metal without entry would throw); grid units, [scale], [tileLayerNo] and the areas of vias are positive (otherwise the loops do not end or the divisions are undefined); [floor(double(a) / b)] is exact. [index], [Xidx], [Yidx], [maxXidx], [maxYidx], [IDXmap] and [Start_index], [End_index] follow from the order of the tiles.
* `Model/Grid.v` — Model of align/cell_fabric/grid.py.
  * Simplified: colours are integers.
  * Simplified: the evenness assertion on the width (line 88) is a precondition.
  * Simplified: the [check] argument only logs.
* `Model/GroupBlock.v` — Grouping elements of a subcircuit under a canonical name: create_canonical_primitive, align/compiler/match_graph.py:128-223 (GroupBlocks constraints).
  * Simplified: generators and constraints are not modelled.
* `Model/GuardRing.v` — The guard ring around a placed node: GuardRing.cpp (called for a node with Guardring_Consts, align/pnr/placer.py:61-63). Coordinates are integers ([int] without overflow); the two directions have the same formulae, so a direction is a record.
* `Model/HananGeom.v` — Rectangles of the Hanan router: hanan_router/Geom.h:22-250, hanan_router/Geom.cpp:7-75. Coordinates are integers without overflow; the square root of the Euclidean distance is left out. The R-tree, Geom.cpp:77-128, is not modelled.
* `Model/HananGrid.v` — The free ranges of the lines of the Hanan grid: hanan_router/HananRouter.cpp:1001-1117 (insertRange, invertRange, generateHananGrid), IntPairComp of HananRouter.h:211-217. Sets are sorted lists. One layer and one direction at a time: [vert] for the lines in which x is fixed. The snapping of coordinates is that of Model/HananGeom.v.
* `Model/HananNet.v` — The order in which the Hanan router joins the ports of a net: hanan_router/Net.cpp:28-138 (reorderPorts) and 140-175 (clockRouteOrder). Distances ([double] in the code) are exact: an integer stands for that many parts of 1 / (1000 * half perimeter of the net). [None] is a distance that is less than no other: 1e30 for ports without shapes (1e29 if one of them is virtual), NaN for a net of half perimeter 0. The two sorts, which need not be stable in C++, are stable here; the theorems about them hold for any order of ties.
* `Model/HananStep.v` — The steps of the Hanan router from a node along a line: hanan_router/HananRouter.cpp:780-836 (snap, getTargetGrid, getAdjacentGrid) and 862-998 (expandNode). A direction is [vert] (north and south, else east and west) and [up] (north or east). The steps are the coordinates at which nodes are made; vias, 847-860, and the queue are not modelled.
* `Model/Hier.v` — Hierarchical netlists (align/schema/library.py, subcircuit.py, instance.py) and the removal of single-instance hierarchies, align/compiler/preprocess.py:60-144.
  * Simplified: no generator and no constraints (the passes below do not read them).
  * Simplified: all names are in upper case already.
  * Simplified: [elements.remove(ele)] removes the element of that name (names are unique).
* `Model/Hpwl.v` — Model of align/pnr/hpwl.py.
  * Simplified: [m] set with [M] unset (a TypeError in Python) never arises from [add]; 0 here.
  * Simplified: reading creates an empty entry in Python; an empty entry behaves like an absent one, also under the membership test of line 205, which guards an update that does nothing for an empty entry.
* `Model/KeepOrder.v` — Model of placer/SeqPair.cpp:683-1279 [KeepOrdering] (PlaceRouteHierFlow): the sequence pair after a move is brought in line with the ordering, alignment and symmetry constraints. [CATCH_INFINITE_LOOP] is defined (line 1). Undefined behaviour and failed assertions are [None].
  * Simplified: equal keys keep their order in [std::sort] (line 739).
* `Model/LayoutIO.v` — Model of align/cell_fabric/positive_coord.py and of the geometry part of align/cell_fabric/gen_gds_json.py.
  * Simplified: all other terminal fields are one opaque payload [A] which json_pos writes back unchanged.
* `Model/Lef.v` — Model of align/cell_fabric/gen_lef.py (writer), lef_parser.py (tokenizer and parser) and lef_to_json.py (conversion to a layout), at the level of characters.
  * Simplified: text is ASCII; floating point numbers are exact decimals.
* `Model/ManipHier.v` — Model of align/pnr/manipulate_hierarchy.py:17-108,131-136 (power pins).
  * Simplified: the fallback to the upper-case name (45-46) is left out. [None] = failed assertion or recursion deeper than [fuel].
* `Model/MetalTemplate.v` — align/cell_fabric/routing_collateral.py:4-72, [MetalTemplate]: the widths, spaces and stops written for a wire from its grids.
  * Simplified: colours are integers (Model/Grid.v); the layer, the name and the printing of numbers are left out.
* `Model/Mna.v` — The linear system of the IR-drop simulator: MNASimulation.cpp:47-191 (matrix and right-hand side), 409-441 (nodenum, AddingPower), 558-612 (FindPowerPoints), 663-690 (the order of the devices), 776-837 (the devices added by Map_new). The extraction of the wires and vias and the search for the points nearest to a load are not modelled. Numbers are exact ([double] in the code); vectors are functions on Z, without bounds; a resistor of 0 ohms is left out (its conductance is 0 here). SuperLU, which solves the system, is not modelled.
* `Model/MosGen.v` — The transistor generator of pdks/FinFET14nm_Mock_PDK: sizes (gen_param.py), choice of the pattern (align/primitive/main.py) and the array with its wiring (mos.py).
  * Simplified: the values are integers already, and NFIN, NF and M are present.
  * Simplified: exact division.
* `Model/Netlist.v` — Netlists (align/schema/instance.py, subcircuit.py, graph.py) and the two passes of align/compiler/preprocess.py that merge parallel (271-305) and stacked (308-369) devices.
  * Simplified: [abstract_name] is not read by these passes.
  * Simplified: only an optional minus sign and decimal digits; python also accepts surrounding blanks, a plus sign and underscores.
  * Simplified: instance names and net names are taken from different name spaces (a [networkx] node that is both would be confused), and instance names are unique.
* `Model/NewHier.v` — Moving elements of a subcircuit into a new one: create_new_hiearchy, align/compiler/create_array_hierarchy.py:282-340 (called with [pins_map=None]).
  * Simplified: elements have at least one pin.
  * Simplified: by name.
* `Model/OrderLib.v` — align/compiler/read_library.py:49-56 and 60-74, [order_lib] and the generators of the primitives.
  * Simplified: of an element only its model and the nets of its pins are kept; [1 / len(x.nets)], a float, is compared exactly, so that the larger one has fewer nets.
* `Model/Passives.v` — The capacitor and resistor generators of pdks/FinFET14nm_Mock_PDK: cap.py, res.py.
  * Simplified: all grids start at 0, and M1 and M3 of the default canvas stop on the grid of M2.
  * Simplified: exact division.
  * Simplified: exact division.
* `Model/Pex.v` — Model of align/cell_fabric/pex.py (class ParasiticExtraction).
  * Simplified: the quotient in [math.ceil] and the R/C values are exact rationals instead of floats; the text output ([writePex], [getSummaryCaps]) is not modelled.
* `Model/PlaceFlow.v` — Model of placer/ILP_solver.cpp:2773-3031 [MoveBlocksUsingSlack], [GenerateValidSolutionCore] and the geometric part of [GenerateValidSolution], with placer/ILP_solver.h:62-82 (PlaceRouteHierFlow): how the integer programs of [PlaceRows] are used.
  * Simplified: the solver is a function of the mode and the last coordinates; a call that fails leaves the coordinates as they are; the solver reads the pitches of the same layers in each call; the weights of the cost, the linear constraints and the terminals are left out.
* `Model/PlaceGrid.v` — Model of align/pnr/grid_constraints.py, of the validator of [PlaceOnGrid] (align/schema/constraint.py:1043-1059) and of the flat checker in align/pnr/checker.py:85-128.
  * Simplified: the scalings are integers here; the schema restricts them to -1 and 1.
  * Simplified: non-positive pitches (ZeroDivisionError, ValueError or an empty constraint) are [None] here.
  * Simplified: the path is a list instead of a string joined by "/".
  * Simplified: the constraints come from the leaves of the placement instead of from the primitive's json file.
* `Model/PlaceRows.v` — Model of placer/ILP_solver.cpp:1733-2771 [FrameSolveILPCore] (PlaceRouteHierFlow): the variables, bounds and rows of the integer program that places a sequence pair.
  * Simplified: the solver is any function that gives an assignment which meets the rows and the bounds with the variables of [intvars] integral (no tolerance, so [roundupint] is the identity on them); the objective (lines 1856-1904 and the [objective] of the matched blocks) is left out, since no property here is about optimality; coefficients are doubled, for the rows with 0.5; the blocks are those of the selected variants; only connections of nets to blocks are kept; [halo], box and sizes are integers without overflow; the blocks and pins named exist.
* `Model/PlacerPy.v` — Model of align/pnr/placer_pythonic.py:28-106 ([compute_topoorder], 8-25, is in Model/Topo.v).
* `Model/PnrGeom.v` — Geometry of the placer's and router's database: orientations and the transformation of nodes. PlaceRouteHierFlow/PnRDB/PnRdatabase.cpp. C's int is Z here (no overflow).
* `Model/PnrInput.v` — Input of the placer: pnr/build_pnr_model.py:17-124, pnr/main.py:104-179 and 235-244, pnr/placer.py:69-98.
  * Simplified: the name of the module is the one found (23).
  * Simplified: which files exist is not modelled.
* `Model/PnrLink.v` — The passes of the placer's database over the netlist that was read: hierarchy, terminals, supplies, net indices. PlaceRouteHierFlow/PnRDB/PnRdatabase.cpp:1533-1591 (semantic0), 1605-1652 (semantic1), 1654-1715 (semantic2), PnRDB/datatype.h:269-291, 300-308, 372-384, align/pnr/build_pnr_model.py:103-107 and 154-158. The netlist comes from read_module (Model/PnrInput.v). -1 as an index is None.
  * Simplified: of the fields those below; the instances of a block share one list of pins (Model/PnrMerge.v has the instances); linear constraints (1717-1755) are left out.
* `Model/PnrMerge.v` — The variants of a block: PlaceRouteHierFlow/PnRDB/PnRdatabase.cpp:1757-1847 (stem, MergeLEFMapData), align/pnr/build_pnr_model.py:109-124 (_ConstructMap). Unsigned ints have 32 bits and sizes 64.
  * Simplified: of an instance the master, the file, the LEF macro with its size, and the pins with their geometry, of any type G; lines of the map file are pairs already.
* `Model/Preprocess.v` — Removal of dummy devices, and the passes of one circuit in order (compiler/preprocess.py:12-60, 372-406).
  * Simplified: the loop is bounded by the size of the library; without cycles it never runs longer.
  * Simplified: [same_template] adds constraints and does not touch the netlist.
* `Model/PyRoute.v` — align/pnr/pythonic_router.py:113-132, [rect_to_grid]: the grid indices of the centre, begin and end of a rectangle of the layer of wire [w]. [None] = an assertion failed or [inverseBounds] gave nothing.
  * Simplified: the generator of the layer, canvas.py:204-208, is an argument.
* `Model/PySort.v` — Python's [sorted(l, key=...)] / [list.sort(key=...)] with an integer key: a stable ascending sort. Used for grid.py:43, remove_duplicates.py:231, drc.py:91,127, manipulate_hierarchy.py:154 and others. Modelled as insertion sort; CPython's timsort is also stable, so the two agree on every input (PySortP.v proves the sort is a stable ordered permutation, which determines it).
* `Model/ReadCon.v` — The way of the placement constraints into the placer: align/pnr/write_constraint.py:44-178 [map_valid_const], PnRDB/ReadConstraint.cpp:228-307, 320-355, 604-614 and 647-661, and the constructor of the design, placer/design.cpp:201-230, 297-305 and 324-378 (PlaceRouteHierFlow).
  * Simplified: a constraint is one of those with a formula (Model/Formulas.v) or a distance; the aspect ratio is written but not read here, and the other constraints are left out; a name that is not the one of a block is left out (the code does so for orders, alignments and spreads and for self-symmetric blocks; a pair gets -1); the box and the halo are whole numbers.
* `Model/RemoveDuplicates.v` — Model of align/cell_fabric/remove_duplicates.py (everything except [dump], the log output and the unused [new_slr]).
* `Model/ReplaceMatch.v` — Replacing the occurrence of a template in a subcircuit by an instance: Graph._replace_matches_with_subckt and create_subckt_instance, align/schema/graph.py:160-252.
* `Model/ResolveParams.v` — Resolution of parameters, align/compiler/create_database.py:28-39 and 98-233.
  * Simplified: subcircuits have neither constraints nor generators.
  * Simplified: [ele.copy()] (types.py) is the same element; the parameter dictionaries are not shared.
* `Model/RouteHier.v` — The router's walk over the hierarchy from the top down: one routed copy for each occurrence of a cell. align/pnr/router.py:251-332. Of a hierNode the fields that the walk reads or writes; of a block its selected instance; the routing itself (route_single_variant, CheckinChildnodetoBlock) leaves these as they are.
* `Model/RouteNames.v` — Model of align/pnr/manipulate_hierarchy.py:138-173 [change_concrete_names_for_routing]. Strings are lists of ASCII characters. Not modelled: newlines inside names ([.] and [$] of the pattern treat them specially) and non-ASCII digits.
* `Model/RouteUp.v` — The router's walk from the bottom up: one routed copy for each selected placement of a cell. align/pnr/router.py:174-245, PlaceRouteHierFlow/PnRDB/PnRdatabase.cpp:17-22 and 85-94. As in Model/RouteHier.v, of a node the fields that the walk reads or writes.
  * Simplified: the lower left corner is the cell's, not the placement's; the assertions on it and on the orientation are kept.
* `Model/ScalePlacement.v` — Model of the scaling of placements, align/pnr/render_placement.py:126-170.
  * Simplified: the other fields are copied unchanged by copy.deepcopy (146) and left out; the list of four numbers is a [Rect].
* `Model/SeqCheck.v` — Model of placer/SeqPair.cpp:1291-1690 [CheckSymm] and [CheckAlign] (PlaceRouteHierFlow): the tests by which the placer throws away sequence pairs without a placement.
  * Simplified: a map that is read with [operator\[\]] at a missing key gives an empty set; the sets are lists of which only the members matter; positions are those of [find], which are the ones of the maps [posPosition], [negPosition] since a sequence holds a block once; an alignment does not name a block twice and [grid_unit_x] is positive.
* `Model/SeqEnum.v` — Model of the enumerated search of the placer, PlaceRouteHierFlow/placer/SeqPair.cpp:11-245 ([OrderedEnumerator], [SeqPairEnumerator]) and of the loop that uses it, Placer.cpp:249-269. Simplified throughout: blocks are numbered from 0 (they are indices of [design::Blocks]); [size_t] values are integers, reduced modulo 2^64 where the code multiplies them; loggers are left out.
  * Simplified: [Blocks.at] out of range (an exception) gives 0 and the first element of an empty set (undefined) is block 0.
  * Simplified: costs are integers, of which only the order is used. PerturbationNew (SeqPair.cpp:1711-1722, 1783) is one [permute] here. The keys that ReshapeSeqPairMap (Placer.cpp:433-444) keeps are the first [size]. [None] is the [assert(0)] of line 268. The fuel is the number of iterations after which line 262 leaves the loop.
* `Model/SeqPair.v` — Model of the sequence-pair placer, align/pnr/placer_pythonic_sp.py, and of the expansion of user constraints and the solver formulae in align/schema/constraint.py that it relies on.
  * Simplified: the remaining classes carry nothing that the placer reads and are [UOther].
  * Simplified: a name that is not one of the eight lines (a ValidationError) is [None]; the validator at 512-531 excludes it.
  * Simplified: [DoNotIdentify] is not read by the placer and is dropped; the assertion at 585-586 (a region listed both above and below) is not modelled.
  * Simplified: networkx is modelled by the enumeration that always picks a node without predecessor among the remaining ones; the order of the results may differ, and a cycle (NetworkXUnfeasible) gives no result.
  * Simplified: the arbitrary element of the set is the first one of the list; [None] = KeyError. An empty first group would leave [instance] unbound.
  * Simplified: values are exact rationals (the code reads floating point numbers from the solver), variables are identified by their role instead of a string (so an instance and a wire of the same name do not clash), and the variables that occur in one constraint only are quantified there.
  * Simplified: the schema (constraint.py:977-979) excludes lists of other lengths.
  * Simplified: absent values are not bounded (the code would raise). [int] truncates.
* `Model/SpiceLex.v` — The tokens of a SPICE netlist (schema/parser.py:14-82). Regular expressions are written in continuation-passing style, with the order of alternatives and the backtracking of Python's [re]: a matcher gets what follows it and the text, and gives the text left over.
* `Model/SpiceParse.v` — The SPICE parser, align/schema/parser.py:63-203, on the statements and annotations of Model/SpiceLex.v. Numbers: [num s] is the text of [_cast] (125-137) for a NUMBER, as pydantic turns it into a string, and [None] when [float] raises ValueError. [ord] is the order in which Python goes through a set of positions (119-123). Constraints stay texts: their evaluation (176-177) is outside the model.
* `Model/SymConst.v` — Constraints from symmetric parts (compiler/find_constraint.py:371-496).
* `Model/SymNet.v` — Pins of symmetric nets (compiler/find_constraint.py:499-598).
* `Model/SymmGroup.v` — Model of the placer's symmetry groups, placer/design.cpp:1306-1334 and 1554-1758 (PlaceRouteHierFlow), of the first sequence pair, placer/SeqPair.cpp:390-425 and 427-555, and of the moves of the annealing, SeqPair.cpp:605-617, 638-669, 1798-2110. Simplified throughout: blocks are numbered from 0, numbers from [length (pd_sizes d)] on stand for terminals, which have no entry in the sequences; [mixFlag] is false, as the constructors leave it; orientations and loggers are left out.
  * Simplified: [.at] beyond the end of the merged places cannot happen, there are at least as many as are read.
* `Model/Topo.v` — Model of [compute_topoorder]: align/pnr/hpwl.py:140-155 and the identical align/pnr/placer_pythonic.py:8-25 (there the instance key is a parameter). [ch] gives, for every key of [modules], the template names of its instances in order.
* `Model/Transformation.v` — Model of align/cell_fabric/transformation.py and of align/pnr/render_placement.py:19-29 (gen_transformation).
  * Simplified: the [None] coordinates allowed by the constructor are not modelled here.
  * Simplified: other strings raise KeyError; here the type has only the four tags.
  * Simplified: the debug log is dropped.
* `Model/TransistorArray.v` — Arrays of unit transistors: align/pdk/finfet/transistor_array.py, gen_param.py and the part of align/primitive/main.py that chooses the pattern.
  * Simplified: [math.floor(math.sqrt(m))] is the exact integer root, which holds for [m] below 2^52.
* `Model/UnionFind.v` — Model of align/cell_fabric/remove_duplicates.py:10-27 [class UnionFind]. An object is a number; the heap maps each object to its [dad] (object identity is number equality). [None] = the object does not exist or the loop did not end within the fuel, which is one more than the number of objects.
* `Model/UpdateConst.v` — Constraints when elements of a subcircuit are replaced by one instance (schema/translator.py:16-229).
* `Model/UserCon.v` — User level constraints and their expansion, align/schema/constraint.py: the validators and [yield_constraints] of [AlignInOrder] (466-544) and [Floorplan] (547-614), [yield_constraints] of the other classes, and [expand_user_constraints] (1562-1569). The formulae are those of Model/Formulas.v.
* `Model/Viewer.v` — Model of the assembly and check of the layout of a routed block, align/pnr/checkers.py:14-326, and of the files written from it, align/pnr/main.py:22-78 (error count only).
  * Simplified: [cblk.instance[cblk.selectedInstance]] is the block itself; the field [master] is only logged.
  * Simplified: indices are natural numbers.
  * Simplified: the two directories and the regular expression for the second are one function of the name.
  * Simplified: one key per layer (82).
* `Model/Visitor.v` — Model of align/schema/visitor.py: [Visitor] and [Transformer] with visitor methods for the leaves ([visit_str], [visit_int], [visit_NoneType]) and the cache of [generic_visit]. Objects live in a heap and are named by their position, which stands for [id]. An object is only added, as python keeps all objects of a tree alive while the tree is visited.
  * Simplified: a [bool] is an integer; the keys of a mapping are strings; [iter_fields] yields all fields; nodes of other types (floats, tuples, ..) are [VBad]. The recursion has a fuel, as a tree with a cycle makes python exceed its recursion limit.
  * Simplified: only the outermost list or dict is converted; values always have the annotated types.
* `Model/WireDraw.v` — Model of the parts of PlaceRouteHierFlow/router/GcellDetailRouter.cpp which block the nodes near obstacles and draw the wires of a path (called from create_detailrouter_new, 367-514).
  * Simplified: [int] without overflow; [floor] and [ceil] of quotients are exact; [grid_unit_x] of a vertical and [grid_unit_y] of a horizontal metal are one function; a metal without one of the two directions is left out; the conditions within the innermost loops of InactivateRect2GridPoints, which repeat the bounds of the loops, are left out; with no node in the grid the code writes out of bounds, here nothing happens.

## 4. What is not modelled

* The C++ placer and router (`PlaceRouteHierFlow`) and everything that only converts data
  for them, except what section 3 names: of `pnr/build_pnr_model.py` the reading of the netlist, of
  `pnr/main.py` the choice of leaf cells, of `pnr/placer.py` the subset of the netlist, of
  `pnr/router.py` the walks from the top down and from the bottom up, of `PnRDB/PnRdatabase.cpp` the passes
  over the netlist, the variants of blocks from map and LEF data, checkout, the eight orientations and checking a
  routed child in; of `pnr/checkers.py` everything except global routes; of `placer/SeqPair.cpp`
  and `placer/Placer.cpp` the enumerated search (the cost of a candidate is a parameter), the first
  sequence pair, the moves, `KeepOrdering` and the tests `CheckSymm` and `CheckAlign`, each on its own (not the loop of
  `PerturbationNew` around them); of `placer/design.cpp` the symmetry groups and what the constructor keeps of the constraints, with `PnRDB/ReadConstraint.cpp`;
  of `router/` the tile grid and the graph of the global router (`GlobalGrid.cpp`, `GlobalGraph.cpp`), the path search for one track
  (`A_star.cpp`), the grid of the detailed router with its point lists (`Grid.cpp`), and of `GcellDetailRouter.cpp` the nodes taken out near
  obstacles, the extension of lines, their rectangles and the places of vias (not the choice of sources and destinations, nor the boxes of vias); of `guard_ring/GuardRing.cpp` the ring, its pins and the move of the node; of `cap_placer/capplacer.cpp` the grids tried, the cells, their pairs and their assignment to nets, the sets of neighbours, the vertical lines and the tracks of the wires (not the shapes of wires, the boxes or the files). Of `MNA/MNASimulation.cpp` the linear system, the power sources and loads (not the solver nor the extraction of wires). Of `hanan_router/` the rectangles and their merging (Geom.h, Geom.cpp), the order of the ports of a net (Net.cpp) the free ranges of the grid (HananRouter.cpp:1001-1117) and the steps along lines (780-836, 862-998), not the costs and queue of the search, vias, R-tree or files. Of `pnr/pythonic_router.py` only `rect_to_grid`. Of `compiler/read_library.py` the order of primitives and the choice of generators (not the reading of files). Of `cell_fabric/routing_collateral.py` the numbers of templates, not the files. Of `schema/pdk.py` the check of vias and the layers written, not the other files.
* The subgraph matcher itself (networkx); of `compiler/match_graph.py` and
  `compiler/create_array_hierarchy.py` the parts not named in section 3 (the constraints added
  for arrays: 206-232, 258-271).
* The command line, logging, the GUI (`cmdline.py`, `main.py`, `gui/`), and of `gdsconv/` the
  pretty printers, `gds2lefjson.py` and `gds2primitive.py`.
* Of the SPICE reader: the conversion of numbers (`str2float`), the evaluation of constraint
  texts, the printing of circuits (`xyce`).
* pydantic itself: a validator is modelled where a property depends on it.
* The drawing of primitives (`primitive/`, `pdk/finfet/`, `pdks/`) except the arrays of transistors of
  `pdk/finfet`, the transistor generator of `pdks/FinFET14nm_Mock_PDK` (sizes, patterns, wires of M1 to
  M3; not its layers below M1), its capacitor and resistor generators, the default canvas and its postprocessing.
* The solvers (ILP, z3): their results enter as assignments that satisfy the posted
  constraints (for the placer, `Model/PlaceRows.v`, exactly and with integral variables); the
  objective functions are left out.

## 5. Trusted base

* Coq 8.16.1: the kernel, `vm_compute` included, and `coqc`.
* `Print Assumptions` of every theorem in MANIFEST.json says
  `Closed under the global context`: no axioms, neither of this development nor of the
  standard library. The standard library files that are loaded declare seven axioms of
  `Coq.ssr.ssrunder.Under_rel` (`Under_rel`, `Under_rel_from_rel`, `Under_relE`, `Over_rel`,
  `over_rel`, `over_rel_done`, `under_rel_done`); no theorem depends on them.
* No functors, module types, plugins, `Admitted`, or disabled kernel checks are used.
* The correspondence between the python text and `Model/*.v`, by reading, with the
  simplifications of section 3 and the omissions of section 4.
* The specifications in `Spec/*.v` and the statements in `Props/*.v`, which are to be read
  as the formal meaning of properties.jsonl.
* The theorems are tested with mutants of the model (seeded/LOG.jsonl): an edit that makes a
  claim false must make its theorem unprovable. Survivors led to stronger theorems, named in
  the log.

## 6. Properties, theorems and findings

Theorems ending in `_refuted` are proofs that the claim, or a natural strengthening of it, is false of the code as modelled. Each exhibits inputs.

* **C01** Transformation composition law (proved). Theorems: `C01_mult_is_composition`, `C01_mult_unique`, `C01_post_pre`, `C01_assoc_identity`, `C01_rect`. Transformation over integers. C01_mult_unique: no other transformation acts like the product.
* **C02** Inverse transformation undoes a placement (proved). Theorems: `C02_inverse`, `C02_inverse_needs_unit`. C02_inverse_needs_unit shows that the +1/-1 hypothesis is needed.
* **C03** Placed rectangles keep their shape (proved). Theorems: `C03_placed_rect`, `C03_disjointness`, `C03_containment`, `C03_canonical_early_late`. Legal orientations are scale factors +1/-1. Membership of points is over closed rectangles.
* **C04** Orientation tags keep a cell on its footprint (proved). Theorems: `C04_genTr_footprint`, `C04_tags`, `C04_gen_transformation`, `C04_offset_origin_refuted`. The block box is mapped exactly when its origin box starts at 0; C04_offset_origin_refuted shows the code is wrong otherwise.
* **C05** Nested generator transforms compose and are restored (proved). Theorems: `C05_canvas_program`, `C05_block_restores_stack`. Programs are trees of add and pushTr..popTr blocks; generators enter by the terminals they add.
* **C06** Grid lookup brackets the coordinate (proved). Theorems: `C06_inverseBounds_brackets`. Grid coordinates are integers; the bisect of the legal indices is modelled by its definition on strictly increasing lines.
* **C07** Grid index and coordinate round trip (proved). Theorems: `C07_roundtrip`, `C07_roundtrip_back`, `C07_strictly_increasing`, `C07_periodic`, `C07_tuple_index`, `C07_library_grids`. C07_library_grids shows that the grids of the library meet the hypotheses.
* **C08** Snapping picks the nearest legal grid line (proved). Theorems: `C08_snap_index`, `C08_snap_coordinate`, `C08_ends_disagree_refuted`, `C08_nonmonotone_refuted`. Index-level claim holds for all grids; coordinate-level claim needs increasing grids with agreeing end legality (refutations show both conditions are needed).
* **C09** Duplicate removal neither loses nor invents metal (proved). Theorems: `C09_same_metal`, `C09_regions_unchanged`, `C09_other_layers_dropped`. Holds for every wiring layer of the canvas, points taken over the rationals; regions are unchanged; layers unknown to the canvas are dropped (C09_other_layers_dropped).
* **C10** Duplicate removal output is normalised and idempotent (proved). Theorems: `C10_normalised`, `C10_idempotent`. Per scan line, under no reported short and equal widths. Idempotence is on the emitted rectangles.
* **C11** Overlapping wires of different nets are always reported (proved). Theorems: `C11_short_reported`, `C11_error_reported`, `C11_shorts_genuine`, `C11_refuted_with_terminal`. Complete for plain wires of one width on the track; other widths are reported as width errors; refuted when terminal markers are involved.
* **C12** Net connectivity is the equivalence closure of the connections made (proved). Theorems: `C12_roots_are_closure`, `C12_root_query_pure`, `C12_queries_do_not_matter`. The list of parents is explicit, with path compression; root is total on every list that the operations can make.
* **C13** Named nets survive duplicate removal (proved). Theorems: `C13_names_survive`, `C13_unnamed_gets_name`, `C13_no_new_names`, `C13_refuted_with_terminals`. Proved for tracks of plain wires; refuted with terminal markers.
* **C14** DRC spacing and length checks are complete (proved). Theorems: `C14_min_length`, `C14_min_spacing`, `C14_via_column_spacing`, `C14_via_row_spacing`, `C14_after_remove_duplicates`, `C14_overlapping_refuted`. Proved for tracks whose wires are separated (the state after duplicate removal); C14_overlapping_refuted shows the check misses violations on overlapping wires.
* **C15** Via enclosure search finds the covering wire (proved). Theorems: `C15_enclosure_exact`, `C15_overlapping_refuted`, `C15_bare_via_refuted`. Exact for ordered tracks; refuted for overlapping tracks, and C15_bare_via_refuted shows a KeyError for a via without metal.
* **C16** Adjacent-via limit: exactly which runs are reported (proved). Theorems: `C16_track_number`, `C16_first_run_column`, `C16_later_run_column`, `C16_genuine_column`, `C16_first_run_row`, `C16_later_run_row`, `C16_genuine_row`, `C16_refuted`, `C16_two_tracks_refuted`, `C16_exact_column`, `C16_exact_row`. Exact in both directions (C16_exact_column, C16_exact_row; rows need vias with distinct left edges). The intended rule is false: C16_refuted misses a run of MaxAdjacent + 1 away from the start of the line, C16_two_tracks_refuted shows positions are grid periods, not tracks.
* **C17** Extraction cells tile each wire exactly (proved). Theorems: `C17_wire_cells`, `C17_cells_from_wires`, `C17_total_capacitance`, `C17_total_resistance`, `C17_ports_irrelevant`, `C17_overrun_refuted`. Needs ports_ok (a wire with a port beyond its start has one inside); C17_overrun_refuted shows the claim fails otherwise.
* **C18** Top-down and bottom-up wirelength agree (proved). Theorems: `C18_agree`, `C18_clash_refuted`. C18_agree under no clash of formal and global names; C18_clash_refuted exhibits a clash for which the two computations differ.
* **C19** Half-perimeter boxes are exact and order independent (proved). Theorems: `C19_exact`, `C19_order_independent`, `C19_invariant`, `C19_monotone`, `C19_update`, `C19_point`. Over integers, including the empty accumulator.
* **C20** Module order lists children first, exactly once (proved). Theorems: `C20_exactly_once`, `C20_children_first`. Acyclic hierarchies; the recursion is modelled with fuel and shown to need no more than the number of modules.
* **C21** Grid constraints propagate exactly through the hierarchy (proved). Theorems: `C21_instance`, `C21_module`, `C21_hierarchy`, `C21_checker`. C21_checker ties the computed constraint to what checker.py tests on the flattened leaves.
* **C22** Merging grid constraints is conjunction (proved). Theorems: `C22_merge_conjunction`, `C22_check`, `C22_periodic`, `C22_directions`, `C22_unnormalised_refuted`. C22_unnormalised_refuted: with offsets outside of the pitch the merged terms lose placements.
* **C23** Sequence-pair placements never overlap (proved). Theorems: `C23_solution`, `C23_enumerated`, `C23_reported`, `C23_rounding_refuted`. Exact for all solutions; the reported (rounded) boxes are disjoint for integer positions. C23_rounding_refuted: an optimal half-integer solution is reported with overlapping boxes.
* **C24** Enumerated sequence pairs respect Order constraints (proved). Theorems: `C24_order`, `C24_complete`, `C24_floorplan`, `C24_floorplan_symmetric`, `C24_on_boundary`, `C24_align_in_order`, `C24_vertical_refuted`. Soundness and completeness of the enumeration; networkx's topological sorts are modelled. C24_vertical_refuted: vertical AlignInOrder is top to bottom, contrary to its documentation.
* **C25** On-grid blocks stay on grid (proved). Theorems: `C25_on_grid`, `C25_check`, `C25_check_exact`, `C25_complete`. Sound and complete for validated constraints.
* **C26** SameTemplate instances always get the same variant (proved). Theorems: `C26_same_variant`, `C26_merge`, `C26_refuted`, `C26_merge_refuted`, `C26_limit_ignored`. Holds when each set meets at most one earlier class (chained); C26_refuted and C26_merge_refuted show that bridging sets break it. The limit on the number of variants has no effect.
* **C27** Reported transformation reproduces the solved box (proved). Theorems: `C27_box`, `C27_points`, `C27_offset_refuted`, `C27_fraction_refuted`. For blocks with their box at the origin and integer positions; refuted otherwise.
* **C28** Global signals reach exactly the modules that see them (proved). Theorems: `C28_exact`, `C28_order_independent`, `C28_again`, `C28_stale_refuted`. The propagated set is the least fixpoint and independent of module order for a fresh start; C28_stale_refuted: stale annotations from an earlier run are kept.
* **C29** Trimming placement data keeps exactly what is used (proved). Theorems: `C29_exact`, `C29_closed`, `C29_idempotent`. Trimming keeps exactly the modules and leaves reachable from the kept tops; idempotent.
* **C30** Power-pin removal preserves connectivity (proved). Theorems: `C30_connectivity`, `C30_two_supplies_refuted`, `C30_capture_refuted`, `C30_crossed_refuted`, `C30_name_clash_refuted`. Total correctness (the pass succeeds and the whole flat netlist is unchanged) for acyclic designs without conflicting supplies or captured names; four refutations show each condition is needed.
* **C31** Merging parallel devices preserves total multiplicity (proved). Theorems: `C31_merge`, `C31_order_refuted`, `C31_multiplicity_refuted`, `C31_again_refuted`. C31_merge: with multiplicities 1 and equal devices listed in name order, for every net order. Three findings proved: another listing order removes the wrong device; existing multiplicities are ignored; a merge found again through a second net drops the count.
* **C32** Merging series devices preserves the circuit (proved). Theorems: `C32_pass`, `C32_one`. C32_pass: all netlists, any net order: success, only internal nets vanish, counts add up, same solutions on remaining nets for every interpretation of the devices, nothing stackable left. C32_one: exact effect of one merge.
* **C33** Creating a hierarchy preserves the flat netlist (proved). Theorems: `C33_completes`, `C33_flat`, `C33_child`, `C33_arrays`, `C33_clash_refuted`. Proved for every well-formed library and every group of elements: the call succeeds when some net leaves the group (C33_completes); every subcircuit keeps its ports and its flat netlist up to the paths of devices and inner nets, injectively, and the library stays well formed and acyclic (C33_flat); the child holds exactly the group and its pins are exactly the nets that leave it (C33_child); any number of moves, such as array and templates (C33_arrays). Condition: no remaining element is called X_<child>; C33_clash_refuted shows two elements of one name otherwise. Constraints are not modelled.
* **C34** Parameter values resolve per instantiation (proved). Theorems: `C34_values`, `C34_two_levels`, `C34_deep_refuted`. Proved for libraries in which a subcircuit that hands its own parameters down to subcircuits is used with one set of values (in particular all two-level designs, any number of instantiations). Refuted in general: the second, different use of a subcircuit copies elements whose inner values were already overwritten by the first use (C34_deep_refuted). Subcircuit constraints and generators are left out of the comparison of copies.
* **C35** Dummy hierarchy removal always completes (proved). Theorems: `C35_ends`, `C35_listed`, `C35_order`, `C35_once`, `C35_removed`, `C35_completes`, `C35_twice_refuted`, `C35_fails_refuted`, `C35_width_refuted`. Proved for every library and every order in which Python may enumerate the set of children. The traversal ends (C35_ends), lists exactly the single-instance hierarchies of the design (C35_listed), each after those below it (C35_order), once each when no subcircuit instantiates both such a hierarchy and something above it (C35_once). Removal then succeeds and keeps the flat netlist - devices, models, nets and parameters, up to the instance names on the paths - of every remaining subcircuit (C35_removed, C35_completes), under the stated condition 'transparent'. The claim as written is false: C35_twice_refuted shows that whenever the top instantiates a single-instance hierarchy directly and also something above it, some order lists it twice and remove_dummies then fails its assertion; C35_fails_refuted gives a KeyError (an inner net that is no port) and a validation error (a capacitor behind an instance called X1); C35_width_refuted shows a changed device width when the inner element computes a parameter from the hierarchy's parameter of the same name.
* **C36** Different devices get different primitives (proved). Theorems: `C36_order`, `C36_string`, `C36_parts`, `C36_own_primitive`, `C36_shared`, `C36_hash_refuted`, `C36_string_refuted`. For any hash function: the hashed string determines the parameters when names have no '_' or ':' and values no ':' (C36_string), does not depend on their order (C36_order), the name determines the model and the eight digits (C36_parts), and every device gets a primitive with its own model and parameters if the truncated hash separates the devices of the design (C36_own_primitive). The claim as written is false: C36_hash_refuted (pigeonhole, for every hash function two transistors that differ in width share a name and the second gets the first's primitive), C36_string_refuted (separators are not escaped).
* **C37** Constraint checkpoints nest (proved). Theorems: `C37_revert`, `C37_latest`, `C37_unknown`, `C37_remove_refuted`. Reverting to any live checkpoint after any history of appends, checkpoints and reverts restores list, commits and solver (C37_revert, C37_latest); unknown names are refused without change (C37_unknown). Refuted part: remove() leaves cache and solver untouched (C37_remove_refuted).
* **C38** A reverted constraint can be added again (proved). Theorems: `C38_as_if_never_added`, `C38_again_refuted`, `C38_removed_refuted`, `C38_rejected_stays`. Behaviour after a revert equals that of a database that never saw the reverted constraints, for histories that do not add one of them again (C38_as_if_never_added). Refuted: a reverted constraint can not be added again because the cache keeps its text (C38_again_refuted, C38_removed_refuted); a rejected constraint's formula stays in the solver (C38_rejected_stays).
* **C39** Formulas posted for placement constraints mean what the documentation says (proved). Theorems: `C39_order`, `C39_order_abut`, `C39_order_pair`, `C39_horizontal_enough`, `C39_horizontal_refuted`, `C39_align_edges`, `C39_align_center`, `C39_align_center_exact`, `C39_align_center_refuted`, `C39_align_any_pair`, `C39_align_any_refuted`, `C39_symmetric`, `C39_symmetric_mirror`, `C39_symmetric_refuted`, `C39_spread`, `C39_spread_refuted`, `C39_aspect`, `C39_aspect_refuted`, `C39_group`, `C39_boundary`, `C39_boundary_refuted`. Order (four directions, abut, two-instance undirected), Align on edges, SymmetricBlocks, Spread, AspectRatio and GroupBlocks equivalences hold. Refuted where formula and documentation differ: undirected order of three instances, centre alignment of odd sizes, h_any of three instances, symmetric pairs of different widths, Spread of overlapping blocks, upper bound of AspectRatio.
* **C40** Placement scaling round-trips (proved). Theorems: `C40_scalar`, `C40_number`, `C40_number_invert`, `C40_roundtrip`, `C40_log_empty`, `C40_flat`, `C40_no_overlap`, `C40_inside`, `C40_overlap_refuted`, `C40_open_refuted`. Scaling divides with floor; round trip exact for multiples; error logged exactly when rounded. C40_overlap_refuted / C40_open_refuted: rounding instance offsets separately from box corners can create overlap or separate abutting blocks.
* **C41** Routing renames modules consistently (proved). Theorems: `C41_renumbered`, `C41_references`, `C41_succeeds`, `C41_leaf_clash_refuted`, `C41_no_leaf_clash`, `C41_duplicate_refuted`. Distinct concrete names assumed for the numbering (refuted otherwise); exact success condition; a renamed module may take a leaf's name (refuted).
* **C42** Transistor arrays use every unit device once (proved). Theorems: `C42_shape`, `C42_variants`, `C42_rows`, `C42_columns`, `C42_halves`, `C42_centroid`, `C42_two`, `C42_one`, `C42_flow`, `C42_third_refuted`, `C42_pattern_refuted`, `C42_template_refuted`, `C42_centroid_refuted`. Holds for two devices and even shapes. Refuted parts: a third device is dropped silently, a user pattern or template may change the number of units, and the common-centroid pattern is chosen for odd rows where it has no common centroid.
* **C43** Shifting a layout to the origin keeps relative geometry (proved). Theorems: `C43_common_translation`, `C43_corners`, `C43_nonnegative`, `C43_idempotent`. json_pos on the list of terminals and the bounding box.
* **C44** LEF written for a block parses back (proved). Theorems: `C44_roundtrip`, `C44_layout_roundtrip`, `C44_parser_total`, `C44_size_refuted`, `C44_body_metal_lost_refuted`, `C44_bus_pin_refuted`, `C44_truncation_refuted`, `C44_multiport_refuted`. Character-level writer, tokenizer and parser. Refutations: SIZE wrong for boxes not at the origin, body pin metal dropped, bus-bit pin names, silent truncation, multiple PORT sections.
* **C45** GDS polygons are closed and cover the rectangle (proved). Theorems: `C45_polygon`, `C45_every_element`, `C45_complete`. Coordinates are integers (float rounding in scale not modelled).
* **C46** Vias are never dropped twice on one crossing (proved). Theorems: `C46_once`, `C46_enclosed`, `C46_complete`, `C46_rect`, `C46_row_spacing`, `C46_column_spacing`, `C46_matrix_keys`, `C46_matrix_all`, `C46_existing_refuted`, `C46_existing_spacing_refuted`, `C46_transposed_refuted`, `C46_two_tracks_refuted`. drop_via over the model's matrix: no crossing gets two vias, vias join wires of one selected net inside both enclosures, and keep SpaceX on the row and SpaceY on neighbouring tracks against every via in the matrix. Findings: existing vias are entered under transposed keys, so a via is dropped on top of (or too close to) an existing one, or a legal one is suppressed; SpaceY is only checked on adjacent tracks.
* **C47** A wire with vias covers all of its vias (proved). Theorems: `C47_wire_covers_vias`, `C47_via_rects_inside`, `C47_succeeds`, `C47_wire_covers_centers`, `C47_mixed_vias_refuted`, `C47_nonmonotone_refuted`. Holds for vias with one common metal extension on increasing stop grids; refuted for mixed via kinds and for non-monotonic stop grids.
* **C48** Joining wires only connects equal nets (proved). Theorems: `C48_same_net`, `C48_complete`, `C48_between`, `C48_covers`, `C48_on_track`, `C48_length`, `C48_snap_refuted`, `C48_off_track_refuted`. join_wires: new wires join consecutive wires of one selected net on one track, cover the gap and stay within the two outer ends when the wire is on the track. Findings: snapping of the ends can leave a gap, and off-track wires get a joining wire on another centre line.
* **C49** Placer solutions satisfy the schema's solver formulae (proved). Theorems: `C49_formulae`, `C49_abut_refuted`, `C49_unspecific_refuted`, `C49_halo_refuted`, `C49_symmetry_refuted`, `C49_boundary_units_refuted`. For the constraints listed in honoured; refutations: abut, undirected order, halo, symmetric pairs of different size, boundary units.
* **C50** The wire-length variable bounds the placed half-perimeter (proved). Theorems: `C50_covers`, `C50_lower_bound`, `C50_priority`. Exact rationals; pin boxes as given.
* **C51** Pin boxes of leaves are exact (proved). Theorems: `C51_pin_bbox`, `C51_order_independent`. Integer coordinates.
* **C52** Splitting partially routed pins preserves connectivity (proved). Theorems: `C52_exact`, `C52_once`, `C52_frame`, `C52_clash_refuted`. Exact; one clash refuted.
* **C53** The placement check accepts exactly the placements that satisfy the posted formulae (proved). Theorems: `C53_check`, `C53_accepts`, `C53_inside`, `C53_inside_enough`, `C53_overlap_refuted`, `C53_rounding_refuted`, `C53_second_check_refuted`, `C53_scaled`. Soundness and completeness relative to the solver (C53_check, C53_accepts), instances inside (C53_inside). Refuted: overlap is accepted because the pair loop iterates over an exhausted generator (C53_overlap_refuted); violations below the scale factor (C53_rounding_refuted); a second check on the same database (C53_second_check_refuted).
* **C54** Testing a primitive's constraints does not disturb the circuit (proved). Theorems: `C54_list_kept`, `C54_user_constraint_refuted`, `C54_second_test_refuted`, `C54_formula_stays_refuted`, `C54_matches_interfere_refuted`. The list keeps its length and, without equal user constraints, its content (C54_list_kept). Refuted: an equal user constraint is removed (C54_user_constraint_refuted), a second test is refused (C54_second_test_refuted), tested formulae stay in the solver (C54_formula_stays_refuted), and matches interfere (C54_matches_interfere_refuted).
* **C55** Stamped cells of a transistor array tile its bounding box (proved). Theorems: `C55_tiles`, `C55_mirror`, `C55_inside`, `C55_array`, `C55_patterns`, `C55_row`, `C55_mirror_refuted`, `C55_height_refuted`. C55_mirror_refuted: vertical mirroring uses bbox[1] and moves the cell unless the box starts at 0; C55_height_refuted: the row height is that of the last cell.
* **C56** M2 tracks of a two-device array never join two nets (proved). Theorems: `C56_even`, `C56_odd`, `C56_odd_refuted`, `C56_gate_refuted`, `C56_range`, `C56_shared`. Holds on even rows and, when tracks are shared by like terminals only, on odd rows. Finding (C56_odd_refuted, C56_gate_refuted): two devices in series get one track for two nets on odd rows.
* **C57** Grouping elements keeps the circuit (proved). Theorems: `C57_flat`, `C57_sequence`, `C57_completes`, `C57_child`, `C57_canonical`, `C57_shared_refuted`, `C57_prefix_refuted`. Up to the names of instances and internal nets; no hash collision is a hypothesis (no_clash). Findings: the name ignores which nets leave the group (C57_shared_refuted); models that ask for another letter than M cannot be grouped (C57_prefix_refuted). Constraints and generators of the group are not modelled.
* **C58** Replacing template matches keeps the circuit (proved). Theorems: `C58_flat`, `C58_copy`, `C58_sequence`, `C58_passed`, `C58_completes`, `C58_port_refuted`, `C58_clash_refuted`. Occurrences are a specification (MatchSpec.occurrence); the matcher of networkx is not modelled. Hypotheses: no clash of names or hash collision (no_clash) and no inner net is a port (ports_kept). Findings: without ports_kept a port loses its connection (C58_port_refuted); a clash of instance names is not noticed (C58_clash_refuted). Constraints of the copy are not modelled here.
* **C59** Constraints survive grouping (proved). Theorems: `C59_list`, `C59_dropped`, `C59_block`, `C59_order`, `C59_pair`, `C59_pins`, `C59_pin_net`, `C59_flow`, `C59_frame`, `C59_kinds`, `C59_child`, `C59_images`, `C59_child_flow`, `C59_lost_refuted`, `C59_caps_refuted`, `C59_single_refuted`, `C59_pairs_refuted`, `C59_internal_refuted`, `C59_rename_refuted`. Names are upper case, pins are split at the slash, currents are integers. Findings: a list without the first element of the map loses the group (C59_lost_refuted, C59_caps_refuted for groups of capacitors); an Order with one grouped member is rejected by the child (C59_single_refuted); disjoint pairs may overlap afterwards (C59_pairs_refuted); currents on inner nets go to pins that do not exist (C59_internal_refuted); renaming fails with a current (C59_rename_refuted).
* **C60** The symmetry search pairs only nodes that look alike and are reached alike (proved). Theorems: `C60_sound`, `C60_terminates`, `C60_fuel`, `C60_branches`, `C60_branches_inj`, `C60_one_to_one_refuted`, `C60_discard_refuted`, `C60_assert_refuted`. Graph, node identifiers (create_node_id) and edge filters are parameters of the model. C60_one_to_one_refuted, C60_discard_refuted and C60_assert_refuted record defects: two instances can get the same partner, 'match_pair = {}' rebinds a local name only, and a second net with more than ten neighbours fails an assertion.
* **C61** Automatic symmetry constraints do not overlap (proved). Theorems: `C61_added`, `C61_written`, `C61_kept`, `C61_runs`, `C61_poison`, `C61_poison_refuted`, `C61_value_refuted`. Uses the constraint database of Model/ConstraintDB.v. C61_poison and C61_poison_refuted: a rejected constraint makes the solver refuse everything that follows. C61_value_refuted: the second node of a pair of nets is not looked for in the graph.
* **C62** Pins of symmetric nets correspond (proved). Theorems: `C62_sound`, `C62_once`, `C62_complete`, `C62_diode_refuted`, `C62_parallel_refuted`, `C62_twice_refuted`. Leaf pins of a connection (get_leaf_connection) are a parameter. C62_diode_refuted, C62_parallel_refuted and C62_twice_refuted record the limits found.
* **C63** The array search finds the largest class of equal neighbours and grows equal rows (proved). Theorems: `C63_groups`, `C63_rows`, `C63_terminates`, `C63_result`, `C63_instance_refuted`, `C63_rest_refuted`, `C63_aligned_refuted`, `C63_shared_refuted`. C63_groups, _rows, _result and _terminates hold for every graph and every iteration order. Findings: C63_instance_refuted (a start point that is an instance raises an exception), C63_rest_refuted (only the last class is used), C63_aligned_refuted (rows of different length; the aligned instance may be a deeper one), C63_shared_refuted.
* **C64** Array hierarchies move exactly the elements that occur once, and keep the flat netlist (proved). Theorems: `C64_new_name`, `C64_flat`, `C64_shape`, `C64_completes`, `C64_name_refuted`, `C64_overlap_refuted`, `C64_aligned_refuted`. C64_flat uses C33 for each move; its hypothesis tidy says that elements named X_ARRAY_... belong to existing array subcircuits. The Align and SameTemplate constraints added to the hierarchy (258-271) are not modelled.
* **C65** SPICE files are read line by line (proved). Theorems: `C65_partition`, `C65_stops`, `C65_no_stop`, `C65_meaning`, `C65_indented_comment_refuted`, `C65_trailing_blank_refuted`, `C65_trailing_star_refuted`, `C65_product_refuted`. Text is ASCII. Python's regular expressions are modelled by backtracking matchers in continuation-passing style. The line forms leave out quoted expressions, backslash continuation and Windows line ends (all are in the model and in C65_partition/C65_stops).
* **C66** The SPICE parser builds the netlist that the statements describe (proved). Theorems: `C66_doc`, `C66_text`, `C66_one_each`, `C66_header`, `C66_top_param`, `C66_default_model_refuted`, `C66_no_ends_refuted`, `C66_nested_refuted`, `C66_same_name_refuted`, `C66_merged_nets_refuted`. Statement-level specification in Spec/SpiceDocSpec.v, composed with the line-level one of C65. Float conversion (num) and set iteration order (ord) are arbitrary; constraint texts are not evaluated. C66_doc and C66_text allow at most one assignment in a header or .MODEL because the order of several depends on ord; C66_header covers any number up to order.
* **C67** User-level placement constraints mean what their documentation says (proved). Theorems: `C67_direction`, `C67_align_in_order`, `C67_vertical_refuted`, `C67_floorplan`, `C67_floorplan_expands`, `C67_floorplan_adjacent`, `C67_empty_region_refuted`, `C67_expand`, `C67_skipped`, `C67_soft`, `C67_floorplan_unprotected_refuted`. Boxes are integer rectangles as in C39. Equality of element parameters for SymmetricBlocks is an arbitrary predicate. An exception in the middle of an expansion counts as failure of the whole expansion.
* **C68** Charge-flow weights (proved). Theorems: `C68_flow`, `C68_unbalanced`, `C68_idle_refuted`, `C68_net`, `C68_nets`, `C68_scaled`, `C68_one_time_refuted`, `C68_reversed_refuted`. Weights are modelled squared (no sqrt) over rationals. C68_idle_refuted, C68_one_time_refuted and C68_reversed_refuted are findings.
* **C69** JSON layouts survive conversion to GDSII records or text and back (proved). Theorems: `C69_gds`, `C69_txt`, `C69_mag_lost`, `C69_other_types_lost`, `C69_path_text_refuted`, `C69_bgnextn_refuted`, `C69_lists_refuted`. Round trips proved for all well-formed documents; key order of JSON objects is the order in which the readers create keys. The python-gdsii library is trusted to store a record faithfully. Findings: C69_mag_lost, C69_other_types_lost, C69_path_text_refuted, C69_bgnextn_refuted, C69_lists_refuted.
* **C70** Source and drain are exchanged exactly where the supplies say so (proved). Theorems: `C70_pins`, `C70_which`, `C70_fails`, `C70_idempotent`, `C70_base_refuted`. Distances are given by the inductive relation near in Spec/ChannelSpec.v. When the two nets are equally far from a supply, the code's answer depends on the order of the walk; the theorem says nothing there. Python's set order is modelled as list order. C70_base_refuted: the base is followed one step only.
* **C71** Dummy-device removal drops exactly the devices that can never conduct (proved). Theorems: `C71_exact`, `C71_fails`, `C71_root`, `C71_single_refuted`, `C71_nosupply_refuted`. remove_dummy_devices as a function of library, supplies and netlist; the end of the base chain is the independent relation root. C71_single_refuted and C71_nosupply_refuted are findings about the code as it is.
* **C72** Circuit preprocessing preserves circuit behaviour (proved). Theorems: `C72_behaviour`, `C72_wrapper_refuted`. Behaviour is satisfaction of every device relation by a valuation of nets. Hypotheses: the devices are physical, the library's MOS models have a polarity, STACK parameters are positive integers. Multiplicity is not counted in the device relation (C31 treats parameter sums). The hypothesis on get_base_model excludes the wrapper circuits of C72_wrapper_refuted.
* **C73** The layers of a PDK define the drawing grids: spacing, and enclosure of vias by wires (proved). Theorems: `C73_load`, `C73_wires`, `C73_spacing`, `C73_enclosed`, `C73_via_table`, `C73_widthy_refuted`, `C73_other_refuted`, `C73_finfet_refuted`, `C73_crossing_refuted`, `C73_across_refuted`, `C73_colored_list_refuted`. Model/DefaultCanvas.v models layer loading and the default canvas over the grid model of Model/Grid.v and Model/Canvas.v; C73_load is an iff, C73_wires gives the exact set of drawable rectangles. Five findings.
* **C74** Postprocessing colours wires and cuts vias exactly as specified (proved). Theorems: `C74_run`, `C74_cuts`, `C74_count`, `C74_apart`, `C74_inside`, `C74_centred`, `C74_color`, `C74_agrees`, `C74_offset_refuted`. Terminals as records with an abstract rest; processors as functions. C74_color gives the exact colour for every offset. One finding.
* **C75** Each transistor of a primitive gets the unit cells its size asks for (proved). Theorems: `C75_fingers`, `C75_variants`, `C75_legal`, `C75_single`, `C75_equal`, `C75_centroid`, `C75_centroid_refuted`, `C75_ratio`, `C75_ratio_exact_refuted`, `C75_mirror_refuted`, `C75_mixed_refuted`, `C75_user_refuted`, `C75_third_refuted`, `C75_exact`, `C75_exact_second_refuted`, `C75_exact_sizes_refuted`. Findings: unequal devices get wrong sizes (a mirror 1:2 is drawn 2:1 or 1:1), equal fingers split differently cannot be drawn, user patterns are replaced for odd shapes, only the first exact pattern is ever drawn and its sizes are not checked, a third device is never drawn without an exact pattern.
* **C76** The wires of a transistor array connect exactly the terminals of each net (proved). Theorems: `C76_lvs`, `C76_body_refuted`, `C76_body_track_refuted`, `C76_shared_refuted`, `C76_many_refuted`. Connection is the closure of touching wires and vias, defined independently in Spec/LvsSpec.v; layers below M1 are not modelled. Findings: different body nets, and different source nets under shared diffusion, are shorted; with more nets than tracks nothing above M1 is drawn.
* **C77** Capacitor generator draws exactly two plates (proved). Theorems: `C77_plates`, `C77_pins`, `C77_size`, `C77_thin_refuted`. Wires are boxes, a via joins the boxes of two neighbouring layers covering its centre; float division is exact; design rules are not modelled.
* **C78** Resistor generator draws one serpentine of the right number of fingers (proved). Theorems: `C78_connected`, `C78_series`, `C78_path`, `C78_ends`, `C78_value`, `C78_length`, `C78_length_refuted`, `C78_array_refuted`. Same geometry as C77. The main theorems are for one cell, the only case the flow generates; C78_array_refuted covers every array with at least two columns and two fingers.
* **C79** Index tables for the placer describe exactly the netlist (proved). Theorems: `C79_total`, `C79_pins`, `C79_nets`, `C79_index`, `C79_index_refuted`, `C79_port`, `C79_port_refuted`. PnRDB objects are records of indices; terminals and nets as lists. C79_index_refuted and C79_port_refuted are the two limits found.
* **C80** Leaf cells collected for placement (proved). Theorems: `C80_leaves`, `C80_covered`, `C80_shared_refuted`, `C80_same_name_refuted`, `C80_collateral`, `C80_map_refuted`. Proved with its proviso; C80_shared_refuted, C80_same_name_refuted and C80_map_refuted show the code drops or keeps cells it should not.
* **C81** Subset of the netlist for one placement (proved). Theorems: `C81_exact`, `C81_closed`, `C81_ends`, `C81_cycle`, `C81_duplicate_refuted`. Python recursion as fuel; C81_ends and C81_cycle say when some fuel suffices. C81_duplicate_refuted for repeated names.
* **C82** Database geometry: the eight orientations (proved). Theorems: `C82_point`, `C82_inverse`, `C82_box`, `C82_compose`, `C82_path`, `C82_terminal`, `C82_terminal_inverse`, `C82_terminal_refuted`, `C82_guardring`, `C82_guardring_refuted`, `C82_checkin_own`, `C82_checkin_upright`, `C82_checkin_refuted`. C++ int as Z. C82_terminal_refuted, C82_guardring_refuted and C82_checkin_refuted are faults found; the positive theorems state the cases that are right.
* **C83** Routing top down unfolds the hierarchy (proved). Theorems: `C83_succeeds`, `C83_copies`, `C83_results`, `C83_results_refuted`. CheckoutHierNode, TransformNode of the blocks, RelOrt2AbsOrt and the whole walk are modelled; the routing of a node (route_single_variant) and CheckinChildnodetoBlock are taken to leave the fields of the walk alone. Assumes the placements' children exist and are not the top, and distinct cell names.
* **C84** Routing bottom up shares the hierarchy (proved). Theorems: `C84_nodes`, `C84_unfolds`, `C84_succeeds`. The depth-first order, the collection of needed placements and the whole walk are modelled; the routing of a node and CheckinChildnodetoBlock are taken to leave the walk's fields alone. Simplified: the lower left corner is the cell's, not the placement's; the order of list(set(..)) of parents is unspecified.
* **C85** Linking the netlist in the placer's database (proved). Theorems: `C85_defined`, `C85_parents`, `C85_child`, `C85_top`, `C85_nets`, `C85_iter`, `C85_power`, `C85_symmetric`, `C85_child_refuted`, `C85_supply_symmetric_refuted`, `C85_two_pairs_refuted`, `C85_supply_refuted`, `C85_local_refuted`, `C85_twice_refuted`. The passes over the netlist as functions on its tree; the instances of a block share one list of pins, linear constraints are left out. Undefined reads in C++ are a missing result.
* **C86** Variants of the blocks from the map and the LEF data (proved). Theorems: `C86_stem`, `C86_defined`, `C86_variants`, `C86_errors`, `C86_lost_refuted`, `C86_report_refuted`, `C86_cap_refuted`, `C86_pin_refuted`. Machine integers are modelled (32 bit indices, 64 bit npos). The assertion on a missing LEF is taken as a failure; the geometry of a pin is any type.
* **C87** The layout that is checked is the flat layout (proved). Theorems: `C87_layout`, `C87_names`, `C87_nets_through_levels`, `C87_metal_through_levels`, `C87_grid`, `C87_missing_refuted`, `C87_half_refuted`, `C87_high_refuted`, `C87_devices_refuted`, `C87_count_refuted`, `C87_supply_refuted`. Findings: a block whose layout file is missing is dropped without an entry in the error list (C87_missing_refuted); a route half a database unit off its grid line is not reported (C87_half_refuted); layers M7 and above are never checked (C87_high_refuted); device parameters are lost above the first routed level because the written dictionary has no 'subinsts' (C87_devices_refuted); wires of different widths are written to the error file but not counted (C87_count_refuted); unconnected nets of two blocks called like a supply become one net (C87_supply_refuted).
* **C88** The enumerated search of the placer is exhaustive (proved). Theorems: `C88_plain`, `C88_kept`, `C88_covers`, `C88_ordered`, `C88_one_direction`, `C88_sequences`, `C88_left_out`, `C88_best`, `C88_enough`, `C88_mixed_refuted`, `C88_assert_refuted`, `C88_iterations_refuted`, `C88_cycle_refuted`, `C88_overflow_refuted`. Findings: with constraints in both directions the number of positive sequences also bounds the negative ones, so an admissible pair may never be evaluated (C88_mixed_refuted); with constraints the feasibility check counts one sequence per candidate while the loop visits pairs, so at the default limits five blocks with two variants and one constraint run into assert(0) (C88_assert_refuted); an SA iteration limit below 10000 is not the one given to the enumerator, so two blocks with limit 1 run into assert(0) (C88_iterations_refuted); contradictory constraints are dropped silently (C88_cycle_refuted); the number of choices wraps modulo 2^64 (C88_overflow_refuted).
* **C89** Symmetry groups and annealing moves keep every block and every mirror image (proved). Theorems: `C89_groups`, `C89_axis`, `C89_separate`, `C89_initial`, `C89_moves`, `C89_feasible`, `C89_constraints`, `C89_moved`, `C89_exchanged`, `C89_swapped`, `C89_overlap_refuted`, `C89_axis_refuted`. Proved without ordering and alignment constraints (KeepOrdering is not applied). Findings: constraints that share a block but no whole pair or self-symmetric block give two groups with a common block, and exchanging two such groups of unequal size loses a block and doubles another (C89_overlap_refuted); a constraint that meets a group in a pair only loses its own axis direction silently (C89_axis_refuted).
* **C90** Keeping the ordering constraints in the sequence pair (proved). Theorems: `C90_sound`, `C90_sort`, `C90_plain`, `C90_complete`, `C90_once`, `C90_fixup_refuted`, `C90_lost_refuted`, `C90_range_refuted`. C90_fixup_refuted: the corrected negative sequence is looked up right after it was inserted, so one correction always fails. C90_lost_refuted: success although a block is lost (cyclic edges). C90_range_refuted: with an alignment more blocks are written back than there are places. std::sort of equal keys is taken as stable; random_shuffle is any permutation.
* **C91** The tests that reject sequence pairs (proved). Theorems: `C91_align`, `C91_symm`, `C91_groups`, `C91_feasible`, `C91_nested`, `C91_initial`, `C91_nested_refuted`, `C91_self_refuted`, `C91_pairs_refuted`, `C91_loop_refuted`. Findings: C91_nested and C91_initial (nested pairs of a horizontal axis are rejected, so the initial sequence pair of every design with two such pairs is), C91_nested_refuted (one with a placement is rejected), C91_self_refuted and C91_pairs_refuted (sequence pairs about a horizontal axis without any placement pass), C91_loop_refuted (crossing pairs are tested only if the design has an alignment, even of no block).
* **C92** The integer program of the placement (proved). Theorems: `C92_sound`, `C92_mirrored`, `C92_in_line`, `C92_inside`, `C92_exact`, `C92_checked`, `C92_stack`, `C92_stack_refuted`, `C92_order_gap_refuted`, `C92_axis_refuted`, `C92_snap_refuted`. Findings: C92_stack and C92_stack_refuted (vertical ordering rows look for the abutment with the blocks swapped, so an ordered vertical abutment with any spacing is infeasible), C92_order_gap_refuted (they take the horizontal spacing), C92_axis_refuted (sizes are divided by four, so pairs of widths 2 and 4 get different axes in every solution), C92_snap_refuted (the snapping pass drops halo and box).
* **C93** The placement flow: two passes, styles, rounding, limits (proved). Theorems: `C93_on_grid`, `C93_good`, `C93_rounding_refuted`, `C93_mirror_refuted`, `C93_center`, `C93_slack`, `C93_right`, `C93_right_refuted`, `C93_hpwl`, `C93_hpwl_empty`, `C93_single`, `C93_single_refuted`. Solver is an arbitrary function returning only solutions of the rows of C92. Weights of the cost, linear constraints and terminals are not modelled. Findings are stated as refutations or universal theorems (C93_center, C93_slack, C93_right, C93_hpwl_empty, C93_single).
* **C94** Placement constraints on their way to the placer and back (proved). Theorems: `C94_written`, `C94_sane`, `C94_kept`, `C94_direction`, `C94_added`, `C94_between`, `C94_between_refuted`, `C94_variant_refuted`, `C94_spread_refuted`, `C94_stack`, `C94_distance`. End to end from user constraint to checked placement: writer, reader, design constructor, integer program (C92) and the formulas of the python check. Findings: C94_direction, C94_between(_refuted), C94_variant_refuted, C94_spread_refuted, C94_stack; C94_written shows which directions and lines make the writer raise.
* **C95** Sequence pairs reach every placement (proved). Theorems: `C95_exists`, `C95_keeps`, `C95_reached`, `C95_optimum`, `C95_order_refuted`, `C95_spread_refuted`. Both directions of the sequence-pair correspondence (C95_exists), the user's orders (C95_keeps), reachability in the integer program (C95_reached) and optimality of the exhaustive search over all well-placed floorplans (C95_optimum). Findings: C95_order_refuted, C95_spread_refuted.
* **C96** Visitors of the schema walk shared trees (proved). Theorems: `C96_transformed`, `C96_defined`, `C96_shared`, `C96_collected`, `C96_list_refuted`, `C96_type_refuted`, `C96_stale_refuted`, `C96_float_refuted`. C96_transformed, C96_defined, C96_shared, C96_collected on a heap model with object identities. Findings: C96_list_refuted, C96_type_refuted, C96_stale_refuted, C96_float_refuted. Visitor methods on inner nodes (visit_<Class> of a subclass) are not modelled.
* **C97** The global router: shortest paths and connecting trees (proved). Theorems: `C97_graph`, `C97_layers`, `C97_shortest`, `C97_tree`, `C97_found`, `C97_trees`, `C97_layers_refuted`, `C97_steiner_refuted`, `C97_last_refuted`, `C97_forgets_refuted`. Model/GlobalGraph.v; distances are integers without overflow. C97_shortest (Dijkstra with the multimap), C97_tree, C97_found, C97_trees, C97_graph, C97_layers hold for every graph; four _refuted theorems are findings about the code.
* **C98** The grid of the global router covers the chip once on each layer, its graph is symmetric, and pins belong to exactly the tiles they overlap (proved). Theorems: `C98_grid`, `C98_cover`, `C98_pin`, `C98_graph`, `C98_layers`, `C98_plate`, `C98_metal_refuted`, `C98_via_refuted`, `C98_offset_refuted`, `C98_odd_refuted`, `C98_via`. Constructor, ConvertNetBlockPin, AdjustPlateEdgeCapacity and AdjustVerticalEdgeCapacity as written over integers. C98_metal_refuted, C98_via_refuted, C98_offset_refuted and C98_odd_refuted record four defects.
* **C99** The path search of the detailed router ends, and a path it gives is legal (proved). Theorems: `C99_ends`, `C99_path`, `C99_lines`, `C99_complete`, `C99_top_refuted`, `C99_complete_refuted`, `C99_best_refuted`, `C99_check_refuted`, `C99_shield_refuted`. Single track (left = right = 0), as FindFeasiblePath_sym calls it; costs are rationals, infinite cost is None. The grid is any one that meets wf of Spec/AStarSpec.v. Findings: C99_top_refuted, C99_complete_refuted, C99_best_refuted, C99_check_refuted, C99_shield_refuted.
* **C100** The grid of the detailed router holds exactly the crossings of the global path (proved). Theorems: `C100_tracks`, `C100_nodes`, `C100_cover`, `C100_single`, `C100_joined`, `C100_wires`, `C100_vias`, `C100_lists`, `C100_route`, `C100_twice_refuted`, `C100_negative_refuted`. The constructor and the three point-list functions as written over integers; the tile grid is given by functions, and Full_Connected_Vertex (a second copy of the nodes, which the signal search does not read) is left out. C100_route composes with C99_path. Findings: C100_twice_refuted, C100_negative_refuted.
* **C101** Routed wires keep their space to obstacles (proved). Theorems: `C101_nodes`, `C101_clear`, `C101_rect`, `C101_extend`, `C101_vias`, `C101_joined`, `C101_zero_refuted`, `C101_offset_refuted`, `C101_thin_refuted`, `C101_copy_refuted`, `C101_odd_refuted`, `C101_escape_refuted`, `C101_refresh_refuted`. C101_clear is end to end: obstacles, grid (C100), path search (C99), extension, rectangle. It asks that the extended line stays between crossings of its track (C101_escape_refuted shows that the search does not ensure it), for no offsets, for single nodes and for broad obstacles (each refuted without). Seven findings: C101_zero, _offset, _thin, _copy, _odd, _escape, _refresh. The boxes of vias and the nodes taken out around pins (AddViaEnclosure, AddViaSpacing) are not modelled.
* **C102** A guard ring is closed and keeps its space to the node (proved). Theorems: `C102_frame`, `C102_closed`, `C102_gaps`, `C102_space`, `C102_box`, `C102_store`, `C102_grid_refuted`, `C102_side_refuted`, `C102_box_refuted`, `C102_pins_refuted`, `C102_axis_refuted`. Model/GuardRing.v is Pcell_info, DRC_Read, the constructor, storegrhierNode and movehierNode of GuardRing.cpp, per direction. C102_frame, C102_closed, C102_gaps, C102_space, C102_box and C102_store hold for all cells with metal of positive size, node sizes and grids. Findings: C102_grid_refuted, C102_side_refuted, C102_box_refuted, C102_pins_refuted, C102_axis_refuted.
* **C103** Common-centroid placement of unit capacitors (proved). Theorems: `C103_caps`, `C103_room`, `C103_counts`, `C103_even`, `C103_odd`, `C103_near`, `C103_spare`, `C103_middle`, `C103_grids`, `C103_square_refuted`, `C103_twice_refuted`, `C103_user_refuted`. placement only (cells, pairs, nets, grids tried); routing of capacitors is not modelled; distances are compared by their squares
* **C104** Vertical routing lines of the capacitor array (proved). Theorems: `C104_sets`, `C104_placed`, `C104_reached`, `C104_symmetric`, `C104_positive`, `C104_routed`, `C104_enough`, `C104_one`, `C104_tracks`, `C104_wires`, `C104_stuck_refuted`, `C104_symmetric_refuted`, `C104_empty_refuted`. sets, choice of lines and x of the vertical wires; the shapes of the wires, the horizontal wires, boxes and files are not modelled. Findings: C104_stuck_refuted, C104_symmetric_refuted, C104_empty_refuted.
* **C105** Linear system of the IR-drop simulator (proved). Theorems: `C105_nodes`, `C105_laws`, `C105_unique`, `C105_symmetric`, `C105_fits`, `C105_exact`, `C105_built`, `C105_loads`, `C105_unequal_refuted`, `C105_place_refuted`, `C105_parallel_refuted`, `C105_point_refuted`, `C105_points`. numbers are exact rationals instead of double; the solver (SuperLU), the extraction of wires and vias and the nearest points of loads are not modelled. Findings: C105_unequal_refuted, C105_parallel_refuted, C105_place_refuted, C105_point_refuted.
* **C106** Rectangles of the Hanan router: set operations, distance, merging (proved). Theorems: `C106_rect`, `C106_intersect`, `C106_overlaps`, `C106_contains`, `C106_box`, `C106_dist`, `C106_transform`, `C106_snap`, `C106_snap_refuted`, `C106_merge`, `C106_boxes`, `C106_redundant_refuted`. Model/HananGeom.v. Findings: C106_snap_refuted (the remainder of a negative coordinate has the wrong sign), C106_redundant_refuted. Coordinates do not overflow; the R-tree is not modelled.
* **C107** The Hanan router joins the ports of a net by a minimum spanning tree (proved). Theorems: `C107_dist`, `C107_tree`, `C107_first`, `C107_single`, `C107_stuck_refuted`, `C107_clock`, `C107_clock_refuted`. Model/HananNet.v. Distances are exact. Findings: C107_single, C107_stuck_refuted, C107_clock_refuted.
* **C108** The free ranges of the Hanan grid (proved). Theorems: `C108_insert`, `C108_free`, `C108_complete`, `C108_grid`, `C108_top_refuted`, `C108_outside_refuted`. Model/HananGrid.v. Findings: C108_top_refuted (the box is widened by one at its lower end only), C108_outside_refuted.
* **C109** The steps of the Hanan router stay in free ranges (proved). Theorems: `C109_range`, `C109_clear`, `C109_target`, `C109_stays`, `C109_off_refuted`. Model/HananStep.v. Finding: C109_off_refuted. Vias, costs and the queue of the search are not modelled.
* **C110** Rectangles and grid indices in the python router (proved). Theorems: `C110_sound`, `C110_roundtrip`, `C110_shift`, `C110_width_refuted`. Model/PyRoute.v, over Model/Grid.v and Model/Canvas.v. Finding: C110_width_refuted.
* **C111** Metal templates of the routing collateral (proved). Theorems: `C111_lines`, `C111_spaces`, `C111_defined`, `C111_stops`, `C111_offset_refuted`, `C111_period_refuted`, `C111_colors_refuted`. Model/MetalTemplate.v, over Model/Grid.v and Model/Canvas.v. Findings: C111_offset_refuted, C111_period_refuted, C111_colors_refuted.
* **C112** Order of the primitives for matching (proved). Theorems: `C112_order`, `C112_larger`, `C112_defined`, `C112_generator`, `C112_tie_refuted`, `C112_empty_refuted`, `C112_missing_refuted`. Model/OrderLib.v. Findings: C112_tie_refuted, C112_empty_refuted, C112_missing_refuted.
* **C113** Layers written for the detailed router (proved). Theorems: `C113_valid`, `C113_written`, `C113_symmetric`, `C113_order`, `C113_defined`, `C113_alone_refuted`, `C113_name_refuted`, `C113_between_refuted`. Model/AdrLayers.v. Findings: C113_alone_refuted, C113_name_refuted, C113_between_refuted.
