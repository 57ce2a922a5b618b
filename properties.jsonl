{"id": "C01", "title": "Transformation composition law", "statement": "Composing placement transformations with Transformation.mult (and postMult/preMult) gives exactly the transformation that applies the right operand first and the left operand second: hitting a point with the product equals hitting it successively; composition is associative and the default Transformation is a two-sided identity.", "quantifier": "all transformations (any offsets, any scale factors) and all integer points", "why_tests_cant": "The placement hierarchy is arbitrarily deep, with unbounded offsets; only a law for all operands guarantees flattening is consistent.", "anchors": ["align/cell_fabric/transformation.py: Transformation.hit, mult, preMult, postMult"]}
{"id": "C02", "title": "Inverse transformation undoes a placement", "statement": "For every transformation whose scale factors are +1/-1, inv() is a two-sided inverse: hitting any point with the transformation and then its inverse (either order) returns the same point, and the inverse is itself a legal +1/-1 transformation.", "quantifier": "all transformations with sX,sY in {+1,-1}, all points", "why_tests_cant": "Offsets are unbounded integers and the four orientations interact with every offset.", "anchors": ["align/cell_fabric/transformation.py: Transformation.inv, hit"]}
{"id": "C03", "title": "Placed rectangles keep their shape", "statement": "For any legal orientation, transforming a rectangle and canonicalising yields a well-ordered rectangle of the same width and height; a point lies in the transformed rectangle iff its preimage lies in the original; containment and disjointness of rectangles are preserved and reflected.", "quantifier": "all rectangles (canonical or not), all +1/-1 transformations, all points", "why_tests_cant": "Geometry preservation must hold for every coordinate and orientation, not for sampled cells.", "anchors": ["align/cell_fabric/transformation.py: Rect.canonical, Transformation.hitRect"]}
{"id": "C04", "title": "Orientation tags keep a cell on its footprint", "statement": "Transformation.genTr for every orientation tag (N,S,FN,FS) maps a w x h cell box onto itself; gen_transformation of a placed block maps the block's own box exactly on the placed box.", "quantifier": "all cell sizes, all placement origins, all four tags", "why_tests_cant": "Cell sizes and origins are unbounded.", "anchors": ["align/cell_fabric/transformation.py: genTr", "align/pnr/render_placement.py: gen_transformation"]}
{"id": "C05", "title": "Nested generator transforms compose and are restored", "statement": "For every well-nested program of pushTr/popTr and add operations on a canvas, each emitted terminal is the local rectangle moved by the composition of all enclosing transforms (outermost last), and after a balanced program the transform stack is what it was.", "quantifier": "all finite well-nested sequences of canvas operations", "why_tests_cant": "Nesting depth and program length are unbounded.", "anchors": ["align/cell_fabric/canvas.py: transform_and_add, pushTr, popTr, hitTopTr"]}
{"id": "C06", "title": "Grid lookup brackets the coordinate", "statement": "For every grid (strictly increasing lines, period > 0) and every physical coordinate, inverseBounds returns a pair of grid indices whose values bracket the coordinate, with no other grid line strictly between them, and both equal exactly when the coordinate is on a grid line.", "quantifier": "all grids with strictly increasing lines and all integer coordinates including negative ones", "why_tests_cant": "Coordinates range over all integers (negative modulo), grids have any number of lines.", "anchors": ["align/cell_fabric/grid.py: Grid.inverseBounds, value, period"]}
{"id": "C07", "title": "Grid index and coordinate round trip", "statement": "Converting any grid index (whole part, line number, possibly out of range) to a coordinate with value and back with inverseBounds returns the normalised index; value is strictly increasing in the index and periodic.", "quantifier": "all strictly increasing grids and all index pairs, negative or overflowing", "why_tests_cant": "Index arithmetic uses divmod on unbounded and negative integers.", "anchors": ["align/cell_fabric/grid.py: Grid.value, inverseBounds"]}
{"id": "C08", "title": "Snapping picks the nearest legal grid line", "statement": "snapToLegal in either direction returns a legal index on the requested side of the argument, and no legal index lies strictly between the argument and the result.", "quantifier": "all grids with a non-empty set of legal lines and all indices", "why_tests_cant": "Must hold for every legal set including single lines at either end, with wrap to the neighbouring period.", "anchors": ["align/cell_fabric/grid.py: Grid.snapToLegal"]}
{"id": "C09", "title": "Duplicate removal neither loses nor invents metal", "statement": "For every list of terminals that passes the assertions, on every layer and track centre line the set of coordinates covered by the output rectangles of removeDuplicates equals the set covered by the input rectangles.", "quantifier": "all lists of terminals on a scan line, all orders", "why_tests_cant": "Depends on the whole multiset of rectangles and their order; overlapping chains are unbounded.", "anchors": ["align/cell_fabric/remove_duplicates.py: build_centerline_tbl, build_scan_lines, generate_rectangles"]}
{"id": "C10", "title": "Duplicate removal output is normalised and idempotent", "statement": "When no shorts are reported and all widths agree, the rectangles emitted on a scan line are sorted, pairwise separated by a positive gap, and running the pass again on its own output changes nothing.", "quantifier": "all inputs without shorts/terminals conflicts", "why_tests_cant": "Needs induction on the number of rectangles.", "anchors": ["align/cell_fabric/remove_duplicates.py: build_scan_lines, generate_rectangles"]}
{"id": "C11", "title": "Overlapping wires of different nets are always reported", "statement": "If two rectangles of the same layer and track carry different non-empty net names and overlap or touch, a short is reported; a reported short always involves two different names present in the input.", "quantifier": "all lists of rectangles on one track, in any order", "why_tests_cant": "The second wire may be far later in the list and hidden behind an unnamed or merged rectangle.", "anchors": ["align/cell_fabric/remove_duplicates.py: build_scan_lines, connectPair"]}
{"id": "C12", "title": "Net connectivity is the equivalence closure of the connections made", "statement": "After any sequence of connect operations, two scan-line rectangles have the same root iff they are related by the reflexive-symmetric-transitive closure of the pairs connected; root always terminates and path compression never changes the answer.", "quantifier": "all finite sequences of connect/root operations on any number of elements", "why_tests_cant": "Histories are unbounded; pointer cycles would make root diverge.", "anchors": ["align/cell_fabric/remove_duplicates.py: UnionFind.root, connect"]}
{"id": "C13", "title": "Named nets survive duplicate removal", "statement": "Whenever an unnamed wire is merged with a named wire, the merged output carries that name (no net name present in the input on a merged group is lost in the output).", "quantifier": "all input orders of named, unnamed and terminal rectangles", "why_tests_cant": "Depends on order of merging and on which union-find element is the representative.", "anchors": ["align/cell_fabric/remove_duplicates.py: connectPair, build_scan_lines, generate_rectangles"]}
{"id": "C14", "title": "DRC spacing and length checks are complete", "statement": "For the rectangles of a scan line (sorted, disjoint), the DRC reports an error iff some rectangle is shorter than the minimum length or some two rectangles (adjacent or not) are closer than the minimum end-to-end spacing.", "quantifier": "all sorted disjoint scan lines and all rule values", "why_tests_cant": "The check only inspects neighbours; completeness for all pairs needs an argument for every length.", "anchors": ["align/cell_fabric/drc.py: _check_min_length, _check_min_spacing"]}
{"id": "C15", "title": "Via enclosure search finds the covering wire", "statement": "For a sorted disjoint scan line the binary search for the wire covering a via returns a wire containing the via's extent iff one exists.", "quantifier": "all sorted disjoint scan lines of any length and all via extents", "why_tests_cant": "Binary search correctness for every length and position.", "anchors": ["align/cell_fabric/drc.py: _find_rect_covering_via"]}
{"id": "C16", "title": "Adjacent-via limit: exactly which runs are reported", "statement": "The intended rule - a run of more than MaxAdjacent vias at adjacent grid positions is always reported - fails for runs that do not start their line. What holds exactly: a via is reported iff it ends a run of adjacent grid positions longer than MaxAdjacent when the run starts the column (row), longer than MaxAdjacent + 1 otherwise; every report is a genuine violation of the intended rule.", "quantifier": "all sequences of via positions on a row", "why_tests_cant": "The run may start anywhere, after any gap pattern.", "anchors": ["align/cell_fabric/drc.py: _check_via_rules"]}
{"id": "C17", "title": "Extraction cells tile each wire exactly", "statement": "For every wire interval and every set of port locations, the net cells stamped for the wire are consecutive and their lengths add up to the wire length, so total wire resistance and capacitance do not depend on where ports or vias are.", "quantifier": "all intervals, all port multisets, all poly pitches > 0", "why_tests_cant": "Arbitrary number of ports and cells.", "anchors": ["align/cell_fabric/pex.py: _stamp_netcells, _extract_metal_rectangle, _stamp_port"]}
{"id": "C18", "title": "Top-down and bottom-up wirelength agree", "statement": "For every placed hierarchy in which formal and global names do not clash, the bottom-up HPWL computation returns the same total half-perimeter as flattening top-down.", "quantifier": "all finite module hierarchies, instance transformations and netlists", "why_tests_cant": "Hierarchy depth and fan-out are unbounded.", "anchors": ["align/pnr/hpwl.py: calculate_HPWL_from_placement_verilog_d, calculate_HPWL_from_placement_verilog_d_top_down"]}
{"id": "C19", "title": "Half-perimeter boxes are exact and order independent", "statement": "The semi-perimeter accumulator returns max-min in x plus max-min in y over all added rectangles, regardless of order, is invariant under translation and mirroring, and monotone when adding rectangles.", "quantifier": "all finite sequences of rectangles and all +1/-1 transformations", "why_tests_cant": "Any number of pins in any order.", "anchors": ["align/pnr/hpwl.py: Interval, SemiPerimeter"]}
{"id": "C20", "title": "Module order lists children first, exactly once", "statement": "compute_topoorder returns every module and leaf reachable from the top exactly once, each after everything it instantiates, and terminates for every acyclic hierarchy.", "quantifier": "all acyclic module graphs, with sharing", "why_tests_cant": "DAG sharing makes the number of paths exponential.", "anchors": ["align/pnr/hpwl.py: compute_topoorder", "align/pnr/placer_pythonic.py: compute_topoorder"]}
{"id": "C21", "title": "Grid constraints propagate exactly through the hierarchy", "statement": "A module placement satisfies the grid constraint computed for that module from its instances iff every instance's own constraint is satisfied after composing the two placements; by induction, satisfying the top constraint is equivalent to all leaves being on grid in the flattened design.", "quantifier": "all hierarchies, offsets, pitches, orientations and all placements of the top cell", "why_tests_cant": "Composition through an arbitrary number of mirrored levels with modular arithmetic.", "anchors": ["align/pnr/grid_constraints.py: gen_constraints_for_module, gen_constraints", "align/pnr/checker.py: _flatten_leaves, _check_place_on_grid"]}
{"id": "C22", "title": "Merging grid constraints is conjunction", "statement": "Merging two PlaceOnGrid constraints of one direction yields pitch lcm and a set of (offset, scaling) terms accepted by a placement iff both originals accept it.", "quantifier": "all constraint pairs with positive pitches and normalised offsets, all placements", "why_tests_cant": "All residues modulo an unbounded lcm.", "anchors": ["align/pnr/grid_constraints.py: merge, check, lcm, simplify"]}
{"id": "C23", "title": "Sequence-pair placements never overlap", "statement": "Any solution of the constraints posted for a sequence pair places every pair of blocks disjointly and inside the reported bounding box.", "quantifier": "all block counts and sizes, all pairs of permutations, all feasible solutions", "why_tests_cant": "Every permutation pair of every length.", "anchors": ["align/pnr/placer_pythonic_sp.py: place_sequence_pair"]}
{"id": "C24", "title": "Enumerated sequence pairs respect Order constraints", "statement": "Every sequence pair returned under Order constraints makes every solution satisfy those constraints (left_to_right, right_to_left, top_to_bottom, bottom_to_top) for every listed pair of instances.", "quantifier": "all instance sets, all Order constraint lists, all returned pairs", "why_tests_cant": "Exponentially many permutations.", "anchors": ["align/pnr/placer_pythonic_sp.py: enumerate_sequence_pairs, place_sequence_pair", "align/schema/constraint.py: Order"]}
{"id": "C25", "title": "On-grid blocks stay on grid", "statement": "Any solution of the posted constraints for a PlaceOnGrid block yields an origin and orientation that check_place_on_grid accepts.", "quantifier": "all pitches, offsets, scalings, block sizes and solutions", "why_tests_cant": "Infinite solution set.", "anchors": ["align/pnr/placer_pythonic_sp.py: place_sequence_pair, check_place_on_grid"]}
{"id": "C26", "title": "SameTemplate instances always get the same variant", "statement": "In every variant combination enumerated for placement, all instances tied by SameTemplate constraints (transitively) use the same concrete variant.", "quantifier": "all lists of SameTemplate constraints and all variant counts", "why_tests_cant": "Depends on the order and overlap structure of the constraints.", "anchors": ["align/pnr/placer_pythonic_sp.py: enumerate_block_variants", "align/pnr/write_constraint.py: merge_sametemplate_const"]}
{"id": "C27", "title": "Reported transformation reproduces the solved box", "statement": "The transformation extracted from a solution (with flips) maps the block's own box exactly on the box the solver placed.", "quantifier": "all block sizes, flips and positions", "why_tests_cant": "Unbounded coordinates.", "anchors": ["align/pnr/placer_pythonic_sp.py: place_sequence_pair"]}
{"id": "C28", "title": "Global signals reach exactly the modules that see them", "statement": "After propagation, a module's global signal set is exactly the set of formals transitively connected to a top-level global through the instance hierarchy.", "quantifier": "all acyclic hierarchies and all connection maps", "why_tests_cant": "Unbounded depth and sharing.", "anchors": ["align/pnr/placer_pythonic.py: propagate_down_global_signals"]}
{"id": "C29", "title": "Trimming placement data keeps exactly what is used", "statement": "Trimming keeps precisely the modules and leaves reachable from the top module and leaves them unchanged.", "quantifier": "all placement data sets", "why_tests_cant": "Reachability over arbitrary hierarchies.", "anchors": ["align/pnr/placer_pythonic.py: trim_placement_data"]}
{"id": "C30", "title": "Power-pin removal preserves connectivity", "statement": "Removing power/ground pins from the hierarchy never changes which global power net each leaf pin is connected to in the flattened netlist.", "quantifier": "all hierarchies and all power connections, including one module used with different supplies", "why_tests_cant": "Different instantiations of one module interact through a shared cache of renamed modules.", "anchors": ["align/pnr/manipulate_hierarchy.py: remove_pg_pins, modify_pg_conn_subckt"]}
{"id": "C31", "title": "Merging parallel devices preserves total multiplicity", "statement": "Merging parallel devices leaves, for every class of identical devices, one device whose multiplicity is the sum of the multiplicities of the merged ones, whatever the order of the devices in the netlist.", "quantifier": "all netlists and all element orders", "why_tests_cant": "Depends on the order of elements.", "anchors": ["align/compiler/preprocess.py: add_parallel_devices"]}
{"id": "C32", "title": "Merging series devices preserves the circuit", "statement": "Merging two stacked devices sums their stack counts, removes only the internal net, and leaves all other connections unchanged.", "quantifier": "all netlists", "why_tests_cant": "Any chain length and order of nets.", "anchors": ["align/compiler/preprocess.py: add_series_devices"]}
{"id": "C33", "title": "Creating a hierarchy preserves the flat netlist", "statement": "Moving a set of elements into a new child subcircuit leaves the flattened netlist unchanged up to renaming of nets that were internal to the set.", "quantifier": "all subcircuits and all element subsets", "why_tests_cant": "All subsets of elements and all netlists.", "anchors": ["align/compiler/create_array_hierarchy.py: create_new_hiearchy"]}
{"id": "C34", "title": "Parameter values resolve per instantiation", "statement": "After parameter resolution every instance in the design carries the parameter value obtained by evaluating its definition along its own instantiation path.", "quantifier": "all hierarchies with repeated instantiation under different parameters", "why_tests_cant": "A module instantiated several times with different values; depth unbounded.", "anchors": ["align/compiler/create_database.py: resolve_parameters, _update_intermediate_instances, _update_leaf_instances"]}
{"id": "C35", "title": "Dummy hierarchy removal always completes", "statement": "Finding and flattening single-instance hierarchies never fails and never lists a hierarchy twice, whatever the traversal order of the set of children.", "quantifier": "all acyclic libraries and all iteration orders of the child set", "why_tests_cant": "Python set order is randomised; the property must hold for every schedule.", "anchors": ["align/compiler/preprocess.py: find_dummy_hier, remove_dummies"]}
{"id": "C36", "title": "Different devices get different primitives", "statement": "Two device instances with different parameters are never mapped to the same abstract primitive name.", "quantifier": "all pairs of parameter dictionaries", "why_tests_cant": "Needs a statement about all dictionaries; names are an 8-digit hash.", "anchors": ["align/compiler/util.py: gen_key", "align/compiler/gen_abstract_name.py: gen_primitive_def, create_subckt"]}
{"id": "C37", "title": "Constraint checkpoints nest", "statement": "For every sequence of checkpoint/append/revert operations on a constraint list, reverting a checkpoint restores exactly the list at the time the checkpoint was taken, discarding all later checkpoints and nothing else.", "quantifier": "all operation histories", "why_tests_cant": "Unbounded histories.", "anchors": ["align/schema/types.py: List.checkpoint, revert, _revert"]}
{"id": "C38", "title": "A reverted constraint can be added again", "statement": "After reverting a checkpoint the constraint database behaves as if the reverted constraints had never been added; in particular appending one of them again adds it.", "quantifier": "all operation histories", "why_tests_cant": "History dependent (stale cache).", "anchors": ["align/schema/constraint.py: ConstraintDB.append, _revert", "align/schema/types.py: List"]}
{"id": "C39", "title": "Formulas posted for placement constraints mean what the documentation says", "statement": "For every assignment of boxes, the conjunction of formulas yielded by Order, Align, and SymmetricBlocks holds iff the documented geometric relation holds for the instances.", "quantifier": "all instance lists and all box assignments", "why_tests_cant": "Unbounded instance lists and coordinates.", "anchors": ["align/schema/constraint.py: Order.translate, Align.translate, SymmetricBlocks.translate"]}
{"id": "C40", "title": "Placement scaling round-trips", "statement": "Scaling a placement to angstroms and back returns the original placement whenever the original coordinates are multiples of the manufacturing unit, and the direction of any residual is reported.", "quantifier": "all integer coordinates and all scale factors", "why_tests_cant": "Integer division on unbounded and negative coordinates.", "anchors": ["align/pnr/render_placement.py: scalar_rational_scaling, scale_placement_verilog"]}
{"id": "C41", "title": "Routing renames modules consistently", "statement": "Renaming concrete modules for routing is injective, numbers variants of each abstract module consecutively from 0, and every instance reference still resolves to the renamed version of the module it referenced.", "quantifier": "all module lists", "why_tests_cant": "Any number of modules and gaps in the numbering.", "anchors": ["align/pnr/manipulate_hierarchy.py: change_concrete_names_for_routing"]}
{"id": "C42", "title": "Transistor arrays use every unit device once", "statement": "The legalised array has exactly the requested number of unit cells, and the default interleaving of two devices gives both the same number of cells in every row and a common centroid when rows and columns are even.", "quantifier": "all device counts and array shapes", "why_tests_cant": "All sizes.", "anchors": ["align/pdk/finfet/transistor_array.py: validate_array, interleave_pattern"]}
{"id": "C43", "title": "Shifting a layout to the origin keeps relative geometry", "statement": "The positive-coordinate pass moves every rectangle by the same vector, so that the bounding box starts at the origin and all rectangles inside the bounding box get non-negative coordinates.", "quantifier": "all layouts", "why_tests_cant": "Any number of rectangles and negative coordinates.", "anchors": ["align/cell_fabric/positive_coord.py: json_pos"]}
{"id": "C44", "title": "LEF written for a block parses back", "statement": "Parsing the LEF text tokens written for a block returns the block's size, pins and obstructions.", "quantifier": "all layouts", "why_tests_cant": "Any number of pins and rectangles.", "anchors": ["align/cell_fabric/gen_lef.py: lef_from_layout_d", "align/cell_fabric/lef_parser.py"]}
{"id": "C45", "title": "GDS polygons are closed and cover the rectangle", "statement": "Every boundary element emitted for a rectangle is a closed five-point polygon whose corners are exactly the rectangle's corners.", "quantifier": "all rectangles", "why_tests_cant": "All coordinates.", "anchors": ["align/cell_fabric/gen_gds_json.py: flat_rect_to_boundary, translate_data"]}
{"id": "C46", "title": "Vias are never dropped twice on one crossing", "statement": "drop_via never places a via where one already exists and never creates a via-spacing violation with an existing via.", "quantifier": "all terminal lists", "why_tests_cant": "Any arrangement of wires and existing vias.", "anchors": ["align/cell_fabric/canvas.py: drop_via, _construct_via_matrix, _drop_via_if_dr_clean"]}
{"id": "C47", "title": "A wire with vias covers all of its vias", "statement": "addWireAndMultiViaSet always produces a wire whose extent covers every listed via index including the requested enclosure.", "quantifier": "all via index lists, all grids", "why_tests_cant": "Any number of via positions.", "anchors": ["align/cell_fabric/canvas.py: addWireAndMultiViaSet, addWireAndViaSet"]}
{"id": "C48", "title": "Joining wires only connects equal nets", "statement": "join_wires adds metal only between two neighbouring wires of the same net and never across a wire of another net on that track.", "quantifier": "all scan lines", "why_tests_cant": "Any number of wires.", "anchors": ["align/cell_fabric/canvas.py: join_wires"]}
{"id": "C49", "title": "Placer solutions satisfy the schema's solver formulae", "statement": "Every solution of the integer program posted for an enumerated sequence pair satisfies the formulae that the constraint schema itself emits (Order, Align, Spread, Boundary, SymmetricBlocks) for the same boxes in nanometres.", "quantifier": "all constraint lists, instance maps, sizes, scale factors, sequence pairs and feasible solutions", "why_tests_cant": "Two independent encodings must agree on an infinite solution set.", "anchors": ["align/pnr/placer_pythonic_sp.py: place_sequence_pair", "align/schema/constraint.py: translate methods"]}
{"id": "C50", "title": "The wire-length variable bounds the placed half-perimeter", "statement": "In every solution the wire boxes cover all placed pin corners (with flips) and the HPWL variable is at least the priority-weighted half-perimeter wire length of the placement; the last NetPriority entry for a net wins.", "quantifier": "all nets, pins, priorities, sizes, flips and feasible solutions", "why_tests_cant": "Infinite solution set.", "anchors": ["align/pnr/placer_pythonic_sp.py: place_sequence_pair"]}
{"id": "C51", "title": "Pin boxes of leaves are exact", "statement": "The pin bounding boxes the Python placer computes for a leaf cell name a net exactly when the leaf has a pin terminal of that net, each box is the least rectangle containing all of the net's pin rectangles, and the result does not depend on the order of the terminals.", "quantifier": "all terminal lists of a leaf cell", "why_tests_cant": "Arbitrary numbers of terminals and nets, in every order.", "anchors": ["align/pnr/placer_pythonic.py: pythonic_placer"]}
{"id": "C52", "title": "Splitting partially routed pins preserves connectivity", "statement": "For every partially routed primitive the new formal/actual map connects every pin entity to exactly the net its pin was connected to, keeps the other pins, and connects nothing twice unless an entity carries the name of an unsplit pin.", "quantifier": "all pin-entity dictionaries and all formal/actual maps", "why_tests_cant": "Any number of pins and entities.", "anchors": ["align/pnr/manipulate_hierarchy.py: connectivity_change_for_partial_routing"]}
{"id": "C53", "title": "The placement check accepts exactly the placements that satisfy the posted formulae", "statement": "check_placement accepts a placement of a module only if every instance lies inside the module, no two instances overlap and every constraint of the module holds; a placement with these properties is accepted; and the constraint database is unchanged afterwards.", "quantifier": "all modules, constraint lists, placements, call histories of the database, and solvers", "why_tests_cant": "Unbounded placements and histories; the solver is external.", "anchors": ["align/pnr/checker.py: check_placement", "align/schema/hacks.py: VerilogJsonModule.translate, verify", "align/schema/subcircuit.py: SubCircuit.translate"]}
{"id": "C54", "title": "Testing a primitive's constraints does not disturb the circuit", "statement": "Checking whether the symmetry constraints of a candidate match can be met leaves the constraint database of the circuit as it was, and the verdicts for different matches are independent.", "quantifier": "all databases, constraint lists and sequences of matches", "why_tests_cant": "Depends on the whole history of tests on one database.", "anchors": ["align/schema/graph.py: check_constraint_satisfiability, find_subgraph_matches"]}
{"id": "C55", "title": "Stamped cells of a transistor array tile its bounding box", "statement": "The cells stamped by an array generator are pairwise disjoint, lie inside the bounding box and cover it exactly when every cell of a row has the row's height and every row the same width; a mirrored cell occupies the slot it was given. The two devices of an array take the two track patterns in turn, row by row.", "quantifier": "all array shapes, cell sizes and mirrorings", "why_tests_cant": "Any size and mix of cells; generators are only run on the shipped primitives.", "anchors": ["align/pdk/finfet/transistor_array.py: place, stamp_cell, mos_array", "align/pdk/finfet/transistor.py: mos, tap, fill"]}
{"id": "C56", "title": "M2 tracks of a two-device array never join two nets", "statement": "Within a row of an array of two transistors, two terminals are given the same M2 track only if they are on the same net.", "quantifier": "all assignments of nets to terminals, all rows", "why_tests_cant": "Nets are given by the circuit; only the shipped primitives are generated in tests, and shorts appear only for devices in series.", "anchors": ["align/pdk/finfet/transistor_array.py: mos_array", "align/pdk/finfet/transistor.py: mos"]}
{"id": "C57", "title": "Grouping elements keeps the circuit", "statement": "Replacing a group of elements of a subcircuit by an instance of the canonical subcircuit keeps the ports and the flat netlist of every subcircuit of the library, up to the names of instances and internal nets; the new subcircuit holds exactly the group and its pins are exactly the nets that leave it.", "quantifier": "all libraries, groups and sequences of groupings without clashes of names", "why_tests_cant": "Any netlist and any group; tests group a few devices of one circuit.", "anchors": ["align/compiler/match_graph.py: create_canonical_primitive, _group_block_const"]}
{"id": "C58", "title": "Replacing template matches keeps the circuit", "statement": "Replacing an occurrence of a template in a subcircuit by an instance of a copy of the template keeps the ports and flat netlist of every subcircuit of the library, up to the names of instances and internal nets; the copy has the template's connections with the models and parameters of the elements replaced; a match is passed over exactly when an inner net is used by another element or an inner node is to be skipped.", "quantifier": "all libraries, templates, occurrences and sequences of occurrences without clashes of names", "why_tests_cant": "Any netlist, template and order of matches; tests use a handful of primitives.", "anchors": ["align/schema/graph.py: _replace_matches_with_subckt, create_subckt_instance"]}
{"id": "C59", "title": "Constraints survive grouping", "statement": "When elements are replaced by one instance: in lists and rows that contain the first element of the group's map, that element becomes the new instance, the other members disappear and the rest keeps its order; pairs hold the images of their members; pins of nets move to the pin of the new instance on the same net; currents are summed per net with totals kept; constraints that do not mention the group are unchanged; the child receives the images of the grouped members in order.", "quantifier": "all constraint lists, groups, children and currents", "why_tests_cant": "Any constraint set and any group; tests cover a few constraints whose members are all in the group.", "anchors": ["align/schema/translator.py: _top_to_bottom_translation, _update_const, _get_pin_map, _add_const", "align/compiler/match_graph.py: _group_block_const, _group_cap_const"]}
{"id": "C60", "title": "The symmetry search pairs only nodes that look alike and are reached alike", "statement": "Every pair of nodes that FindSymmetry records has equal node identifiers, avoids the stop points (power, ground, clock), and is reached from two ports of equal weight by walks of equal length that avoid the stop points; the search always ends, with recursion depth linear in the number of nodes; find_unique_matching_branches succeeds exactly when every first node has exactly one second node with its identifier. The search is not one-to-one, does not drop pairs whose branches differ, and can fail an assertion.", "quantifier": "all circuit graphs, sets of ports and stop points, port weights", "why_tests_cant": "the search explores pairs of walks of unbounded length; tests cover a few amplifiers", "anchors": ["align/compiler/find_constraint.py:22-228", "align/compiler/util.py:120-211"]}
{"id": "C61", "title": "Automatic symmetry constraints do not overlap", "statement": "add_symmetry_const only adds constraints; no instance gets into two automatic SymmetricBlocks or two pairs of one, no net into two automatic SymmetricNets, and names that the user constrained are left alone; every block constraint is one axis taken from one pairing of the search, without stop points; pairs that conflict with nothing are kept; on the results of the search nothing raises. After one block constraint is rejected by the solver no later one is added, because nothing is reverted.", "quantifier": "all circuits, pairings, user constraints, validators and solvers", "why_tests_cant": "the outcome depends on the order and overlap of arbitrarily many pairings and on the history of the solver; tests cover a few circuits without rejected constraints", "anchors": ["align/compiler/find_constraint.py:371-496", "align/schema/constraint.py:1512-1560"]}
{"id": "C62", "title": "Pins of symmetric nets correspond", "statement": "The pin lists that symmnet_device_pairs returns for two nets have equal length and pair connections of the same kind (same leaf pins, same model) on instances that are symmetric partners and not skipped; without a user constraint and with disjoint symmetric sets no pin occurs twice; when kinds are unambiguous all eligible pairs are found. Nets with a diode-connected transistor, or with two instances of one model on the same pin, are never paired, and a user constraint can use a pin twice.", "quantifier": "all nets, connections, models and symmetric sets", "why_tests_cant": "a double loop over arbitrary connections with early exits; tests see a few nets", "anchors": ["align/compiler/find_constraint.py:499-598"]}
{"id": "C63", "title": "The array search finds the largest class of equal neighbours and grows equal rows", "statement": "Array search starting at a node: the groups of matching_groups are exactly the classes of two or more neighbours with equal identifiers and pins. The rows found start at the members of a largest class; each row holds the nodes at distance at most K of its first node over source/drain edges, never entering stop points or nodes seen before; of two rows one has the kinds of nodes of the other and possibly more; the search stops only at the end of the circuit, when two rows meet in an element, or when the next nodes differ in kind; it always ends. Refuted: rows have the same shape, rows are disjoint, aligned instances touch the start point, all classes are searched, and the search accepts every start point of the symmetry search (an instance raises TypeError).", "quantifier": "all graphs, start points, stop points and iteration orders of sets", "why_tests_cant": "Tests run a handful of circuits; rows depend on graph shapes and on the order of sets, and the failing shapes do not occur in them", "anchors": ["align/compiler/create_array_hierarchy.py:84-204", "align/compiler/util.py:120-187"]}
{"id": "C64", "title": "Array hierarchies move exactly the elements that occur once, and keep the flat netlist", "statement": "add_new_array_hier: a free template name is always found; every subcircuit keeps its ports and its flat netlist; for one start point, either at most one element is to be moved and nothing changes, or the hierarchy consists of one instance per row and nothing else, the template of a row holds exactly the row's elements that occur once in the rows and were not moved before, and the circuit keeps all others. The array is made if its name is free and every row has an element to move on a net that leaves the array. Refuted: the second of two circuits with an array on nets of the same name makes the pass fail; two start points whose arrays overlap make it fail though each alone is fine; instances aligned at one start point can be moved by the array of another, so that the Align constraint names no elements of its circuit.", "quantifier": "all well-formed libraries, circuits, row lists, start points, orders of sets", "why_tests_cant": "which elements of which rows overlap depends on the search from all start points; tests have one array per circuit", "anchors": ["align/compiler/create_array_hierarchy.py:234-257", "align/compiler/create_array_hierarchy.py:273-279", "align/compiler/util.py"]}
{"id": "C65", "title": "SPICE files are read line by line", "statement": "The tokenizer splits a file into consecutive non-empty lexemes, stops only at the end or at one of ( ) { } *, and a file of statements, continuations, comments, annotations and empty lines is read exactly as its statements (with continuations joined, comments dropped) and annotations. Findings: an indented comment line, a blank before the line end followed by a comment line, or an unquoted product make it silently drop the rest of the file; a blank at the end of a statement's line turns the next statement into its continuation.", "quantifier": "all texts (partition, stop); all files built from the line forms of Spec/SpiceSpec.v with any number of lines, names, numbers and expressions; all continuations of the file for the findings", "why_tests_cant": "the regular expressions backtrack over unbounded text; tests use a handful of netlists without trailing blanks or indented comments", "anchors": ["align/schema/parser.py:34-54", "align/schema/parser.py:73-115"]}
{"id": "C66", "title": "The SPICE parser builds the netlist that the statements describe", "statement": "Reading a SPICE file whose lines are well formed gives exactly the described library, top-level elements and per-subcircuit constraints: one subcircuit per .SUBCKT/.ENDS pair with its pins, parameters, elements in order and the constraints between the two lines; one derived model per .MODEL; one element per instance line with nets bound to the model's pins by position and parameters given or defaulted. Every accepted instance statement of any shape adds exactly one element, to the current circuit only. Not true in general: an instance named C*, R* or L* of a user model without assignments silently becomes a CAP/RES/IND with the model's name as value; a missing .ENDS silently drops the constraints; a nested .SUBCKT loses the outer constraints and makes the outer .ENDS fail; duplicate instance names are accepted; nets that are numerals of the same number are merged.", "quantifier": "all files (characters), all libraries, all number conversions, all iteration orders of Python sets", "why_tests_cant": "The tests parse about a dozen fixed snippets; they never combine continuation lines, parameters, nesting and annotations, and cannot range over set iteration orders", "anchors": ["align/schema/parser.py:63-203", "align/schema/instance.py:48-88", "align/schema/library.py:7-28"]}
{"id": "C67", "title": "User-level placement constraints mean what their documentation says", "statement": "AlignInOrder demands exactly a common line and an order of its instances; Floorplan demands exactly stacked rows, rows ordered from left to right if asked for, and all rows balanced about one vertical line if asked for; expanding user constraints demands exactly what was posted when they were added, and protects exactly the listed instances from grouping. Not true: a vertical AlignInOrder is documented as bottom to top but demands top to bottom; an empty region of a Floorplan separates the rows above and below it; a Floorplan that is not both ordered and symmetric does not protect its instances, unlike the Orders it expands to.", "quantifier": "all constraints, all instance lists and regions, all box assignments with positive sizes", "why_tests_cant": "The tests use one or two floorplans with fixed instances and look at the placement chosen by the solver, not at what is demanded", "anchors": ["align/schema/constraint.py:104-120", "align/schema/constraint.py:466-614", "align/schema/constraint.py:1562-1569", "align/compiler/match_graph.py:37-47"]}
{"id": "C68", "title": "Charge-flow weights", "statement": "For every module and every set of ChargeFlow constraints: the weight of two pins of a net is the mean square over time of the current between them, where the currents between pins split the pin currents (each drawing pin receives exactly its current, each supplying pin gives exactly its own) whenever the currents of the net sum to zero; each pair of pins appears once; supply nets are left out; after scaling all weights lie in [0,1] and the largest is 1. Without Kirchhoff's law the supplied currents are scaled; an idle pin next to a drawing one makes the run fail, as does a single time stamp, and the direction of a current is lost when it reverses.", "quantifier": "all instance lists, nets, times, currents and set traversal orders", "why_tests_cant": "The split must hold for any number of pins and times and for every order in which a set is traversed; roles of pins change over time.", "anchors": ["align/pnr/write_constraint.py: map_valid_const (ChargeFlow)"]}
{"id": "C69", "title": "JSON layouts survive conversion to GDSII records or text and back", "statement": "For every well-formed layout document (a header; one or more libraries with one or more structures; boundaries, paths without bgnextn, texts and references with any subset of their fields; point and time lists of two or more numbers), json2gds succeeds and gds2json of the records it writes is the document, for any structure and element counts. The same holds for json2txt and txt2json when there are no paths and no string has a line break. Outside these limits the round trip fails: sref magnification is never written, elements of other types leave a lone ENDEL, a path makes the text reader close the structure so that later structures come back as libraries, bgnextn is read as the start of a structure, and lists of one or no values change.", "quantifier": "all documents, all strings and numbers, all orders and counts of libraries, structures and elements, any real-number formatting that reads back", "why_tests_cant": "The tests convert one sample file each way; the reader is a state machine over nesting levels whose correctness depends on which records precede which, and no test has a path in text form, a magnified reference or a bgnextn.", "anchors": ["align/gdsconv/json2gds.py:22-91", "align/gdsconv/gds2json.py:14-69", "align/gdsconv/json2txt.py:13-71", "align/gdsconv/txt2json.py:11-78"]}
{"id": "C70", "title": "Source and drain are exchanged exactly where the supplies say so", "statement": "define_SD changes nothing of a circuit except that it exchanges the D and S nets of some PMOS and NMOS devices. A device whose two channel nets differ is exchanged only if the pin that belongs on the low side is, walking device channels from the power nets, at least as near as the other and the other at least as near walking from the ground nets; and it is exchanged whenever both are strictly so. The pass fails exactly when power and ground are both declared and one of them is not a port of the circuit. Running it a second time changes nothing. (Finding: the base of a device model is followed one step only, so a transistor whose model derives from NMOS or PMOS in two steps is never exchanged.)", "quantifier": "for every library, circuit with distinct element and pin names, port list and supply lists", "why_tests_cant": "The walks are breadth first over an arbitrary graph; only an invariant of the queue relates the order of visits to distances, and only a simulation between the two runs gives idempotence.", "anchors": ["align/compiler/preprocess.py:147-268", "align/compiler/util.py:19-76"]}
{"id": "C71", "title": "Dummy-device removal drops exactly the devices that can never conduct", "statement": "With a power or ground net declared, remove_dummy_devices removes exactly the transistors whose gate is tied to the off rail of their polarity (PMOS gate on a power net, NMOS gate on a ground net) or whose drain, gate and source are one net, where the polarity is the end of the chain of base models in the library; all other devices stay unchanged and in order. Without supplies nothing is removed. It fails exactly when some device's base chain has no end or when two or more devices are all dummies. Findings: a circuit made of one dummy is emptied; shorted devices survive when no supply is declared.", "quantifier": "All libraries, supply lists and netlists with distinct instance names.", "why_tests_cant": "Tests cover a handful of hand-made netlists; the removal rule ranges over arbitrary base-model chains and pin connections.", "anchors": ["align/compiler/preprocess.py:372-406"]}
{"id": "C72", "title": "Circuit preprocessing preserves circuit behaviour", "statement": "For every physical reading of transistors (drain and source exchangeable, identical parallel devices redundant, off or shorted devices impose nothing), the netlist produced by the per-circuit preprocessing pipeline (source/drain orientation, parallel merging, series stacking, dummy removal, with any of them switched on or off) allows exactly the net values that the original allows, up to internal nets removed by stacking; the result is a well-formed netlist and introduces no nets. Finding: an instance of a subcircuit that holds a single transistor is treated as that transistor, so pins named D and S are exchanged whatever they mean inside.", "quantifier": "All well-formed netlists, libraries, pin lists, supplies, switch settings, orders of set iteration and physical device semantics over any value type.", "why_tests_cant": "A simulation test checks one circuit with one device model; the claim is over all circuits and all device models at once.", "anchors": ["align/compiler/preprocess.py:12-60", "align/compiler/preprocess.py:147-406"]}
{"id": "C73", "title": "The layers of a PDK define the drawing grids: spacing, and enclosure of vias by wires", "statement": "Loading layers.json succeeds exactly when names are distinct, every metal has even pitch, width and offset and integer lengths, every via names two loaded metals as its stack and, for each metal, at most one via has it as upper and at most one as lower metal. In the canvas built from it, the wires of a metal are exactly the rectangles centred on offset+k*pitch with the given width between stop points; stop points lie at the half via size plus enclosure on either side of the tracks of the adjoining metal with the smaller pitch. Hence wires on different tracks are at least pitch-width apart, and (when the stop points of different tracks do not cross) a wire that reaches the middle of a via to that metal encloses it along the wire by the required enclosure. Findings: the check of WidthY tests WidthX; vias to the other adjoining metal are not enclosed (FinFET14nm M3 with V3: 16 instead of 20); crossing stop points break the enclosure (Bulk45nm M4 with V3: 40 instead of 50); the cut may be wider than the wire; a coloured metal with a list of widths cannot be built.", "quantifier": "All lists of layers; all metals, tracks, stop points and vias.", "why_tests_cant": "Tests load the bundled PDK and draw a few wires; that every wire and via drawn on the derived grids keeps spacing and enclosure is a statement about all PDKs and all grid positions.", "anchors": ["align/cell_fabric/pdk.py:20-260", "align/primitive/default/canvas.py:9-140", "align/cell_fabric/grid.py:1-220"]}
{"id": "C74", "title": "Postprocessing colours wires and cuts vias exactly as specified", "statement": "Postprocessing replaces each terminal in place by what the processor of its layer yields, keeps all others, and counts the errors. A via array has NumX*NumY cuts of the given size, pairwise apart by the given space, centred on the via up to one unit (exactly when the parities agree), all inside the via exactly when the array is not larger than it. A wire of a coloured metal gets a copy with a colour, which is the colour the grid gives to its track when the metal has offset 0. Finding: the offset is not taken into account: with an offset of one pitch and two colours the copy always has the other colour; with an offset that is no multiple of the pitch every wire is reported as off grid.", "quantifier": "All terminals, registered processors, via arrays, metals and tracks.", "why_tests_cant": "Tests postprocess a few terminals with one PDK whose offsets are all 0.", "anchors": ["align/cell_fabric/postprocess.py:21-46", "align/primitive/default/via.py:6-46"]}
{"id": "C75", "title": "Each transistor of a primitive gets the unit cells its size asks for", "statement": "Every variant offered for a transistor primitive of the FinFET generator has as many cells as the netlist asks for (NF*M/2 per device): always for one device and for two devices of equal size under the patterns cc, id and ncc; with the default pattern the two devices share one centroid except when the pairs per row and the rows are both odd. For two devices of different size the drawn sizes are the asked ones exactly when the device whose name comes first has twice the fingers of the other and those are a multiple of four.", "quantifier": "all devices, sizes, variants, patterns and legal sizes", "why_tests_cant": "Tests draw a handful of shapes and compare images; whether the number of cells is right for every NF, M, PARALLEL and factorisation is an arithmetic statement over all of them.", "anchors": ["pdks/FinFET14nm_Mock_PDK/gen_param.py:112-262", "pdks/FinFET14nm_Mock_PDK/mos.py:371-442", "align/primitive/main.py:46-83"]}
{"id": "C76", "title": "The wires of a transistor array connect exactly the terminals of each net", "statement": "In the array drawn by the FinFET transistor generator, for any number of rows and columns, any placement of up to three devices in the cells and any netlist, two terminals are connected through M1, M2, M3 and their vias exactly if they are on the same net: no shorts and no opens. Body nets must agree, and source nets too when the diffusion is shared; otherwise the array contains a short.", "quantifier": "all array shapes, placements of the devices, netlists and orders of sets", "why_tests_cant": "An LVS run checks one layout; the statement is about every shape, every pattern and every netlist.", "anchors": ["pdks/FinFET14nm_Mock_PDK/mos.py:161-371", "align/primitive/main.py:76-83"]}
{"id": "C77", "title": "Capacitor generator draws exactly two plates", "statement": "For every PDK whose capacitor wires are narrower than their pitch (also against the end wires) and whose M1 and M3 pitches agree, and every length and width above one wire width, addCap of the FinFET mock PDK draws wires and vias in which two wires are connected, through any path of touching wires and vias on M1, M2 and M3, exactly if they carry the same label PLUS or MINUS; both plates have a pin on M2; and the comb is as long as asked within one pitch. Refuted: with a length of one wire or less no finger is drawn and PLUS is shorted to MINUS.", "quantifier": "all PDK numbers meeting the spacing conditions, all lengths and widths", "why_tests_cant": "Tests draw a handful of sizes of one PDK and compare with golden files", "anchors": ["pdks/FinFET14nm_Mock_PDK/cap.py:45-110"]}
{"id": "C78", "title": "Resistor generator draws one serpentine of the right number of fingers", "statement": "For every usable PDK, finger length and resistance, a single resistor cell of the FinFET mock PDK is one connected piece of wire from PLUS to MINUS; removing any one finger disconnects the terminals; the only wires of M1 that touch are a bend and the two fingers it joins, alternately at the top and the bottom, and the contacts are at the free ends of the first and last finger; and the number of fingers times the resistance of the asked finger length is the asked resistance within half a finger. Refuted: the drawn fingers can be longer than asked (10 percent for a length of 840 in the PDK); in arrays of cells the fingers of further columns are connected to nothing.", "quantifier": "all PDK numbers meeting the spacing conditions, all finger lengths, resistances, array sizes", "why_tests_cant": "Tests compare a few resistors with golden files and never check the array", "anchors": ["pdks/FinFET14nm_Mock_PDK/res.py:44-104"]}
{"id": "C79", "title": "Index tables for the placer describe exactly the netlist", "statement": "Reading a module of the netlist into the placer's database fails exactly when some instance names no template. Otherwise block b is instance b, its pin k carries the k-th formal and the index of the net with the k-th actual's name; every net's list of connections holds exactly the (pin, block) pairs with that actual, each once; net names are distinct and no net is empty. The lookup by instance name gives the position when names are distinct (the last one otherwise). A module port that no instance uses is a terminal but has no net.", "quantifier": "For every module with any number of instances and pins", "why_tests_cant": "A test builds one small netlist; the claim is a bijection between pins and net connections for every netlist", "anchors": ["align/pnr/build_pnr_model.py:17-107"]}
{"id": "C80", "title": "Leaf cells collected for placement", "statement": "The leaf cells are exactly the templates that are no modules and that no capacitor array instantiates, the unit capacitors of the arrays, and the guard rings. So every instance that is no capacitor array gets its cell, provided no template is used both by an array and by an ordinary instance; without this proviso the cell is dropped (refuted), as is the first unit capacitor of two arrays with one name. Layout files are collected for exactly the concrete cells of these leaves; the map file also lists the cells reported as excluded (refuted).", "quantifier": "For every set of modules and of constraints", "why_tests_cant": "The dropped leaf needs one template used in two roles in two modules, which no example design has", "anchors": ["align/pnr/main.py:104-179", "align/pnr/main.py:236-244"]}
{"id": "C81", "title": "Subset of the netlist for one placement", "statement": "The netlist subset for a module consists of exactly the definitions of the modules in its hierarchy (reflexive transitive closure of instantiation), in the original order, so it is closed: every template is in it or is a leaf. The traversal ends if instantiation is well founded and never ends on a cycle below the module. With two modules of one name both are kept but only the last one's children are (refuted).", "quantifier": "For every list of modules and every starting module", "why_tests_cant": "Quantifies over all hierarchies; termination is not testable", "anchors": ["align/pnr/placer.py:69-98"]}
{"id": "C82", "title": "Database geometry: the eight orientations", "statement": "The database's point transformation is the placement of a cell by the isometry its orientation names (quarter turns, mirror), the backward one its inverse, and boxes are transformed with exactly their points. The orientation table is the product of the matrices; so for cells nested to any depth the box and orientation that the router computes on its way down place every point where the nested placements do. A routed child's metal is put into its parent's block as the cell is placed when the child is in its own frame, or not turned by a quarter. Refuted: top down a child turned by a quarter gets its metal outside its box; a terminal with k contacts is moved k times; a guard ring's corners are swapped by every orientation but two.", "quantifier": "All points, boxes, sizes, orientations and nesting depths", "why_tests_cant": "64 orientation pairs times all positions; the unit tests of the database test none of these functions", "anchors": ["PlaceRouteHierFlow/PnRDB/PnRdatabase.cpp:142-180", "PlaceRouteHierFlow/PnRDB/PnRdatabase.cpp:235-243", "PlaceRouteHierFlow/PnRDB/PnRdatabase.cpp:276-479", "PlaceRouteHierFlow/PnRDB/PnRdatabase.cpp:506-560", "PlaceRouteHierFlow/PnRDB/PnRdatabase.cpp:590-671", "align/pnr/router.py:251-275"]}
{"id": "C83", "title": "Routing top down unfolds the hierarchy", "statement": "Routing top down succeeds exactly if the chosen placement has an unfolding. It then appends, for each placement run, one new node for each occurrence of a cell in that unfolding: the tree of new nodes has the names, instances and shape of the design, each node's box and orientation are its place in the top's frame, each node's only parent is the node that holds it, and the recorded path is the chain of instance names. The given cells keep everything but counters and the selected placement. If the top's name is not another cell's name followed by a number, all new nodes are in the results under names of their own. Refuted without that condition: a top AMP_0 with a cell AMP loses the result of a node.", "quantifier": "All hierarchies, placements, orientations, depths and lists of placements to run", "why_tests_cant": "Unbounded sharing in the hierarchy; the tests route a few designs with one or two levels", "anchors": ["align/pnr/router.py:164-172", "align/pnr/router.py:251-332", "PlaceRouteHierFlow/PnRDB/PnRdatabase.cpp:96-172"]}
{"id": "C84", "title": "Routing bottom up shares the hierarchy", "statement": "Routing bottom up appends exactly one node for each placement of a cell that is used below the placements run: it carries the cell's name, sits at the origin with the placement's size, its blocks are the placement's with each child replaced by that child's new node, its parents are exactly the new nodes that hold it, each once, and it is recorded under the cell's name and placement number; these result names are all different. Each new node unfolds to the same design as its placement, to every depth; given cells keep all but counters and the selected placement. If all placements of a cell have the same blocks, the unfoldings exist and the cells are upright at the origin, no assertion of the walk fails.", "quantifier": "All hierarchies with sharing, placements, lists of placements to run, and iteration orders of sets", "why_tests_cant": "Sharing and depth are unbounded; tests route single examples", "anchors": ["align/pnr/router.py:174-246", "PlaceRouteHierFlow/PnRDB/PnRdatabase.cpp:17-22", "PlaceRouteHierFlow/PnRDB/PnRdatabase.cpp:85-118"]}
{"id": "C85", "title": "Linking the netlist in the placer's database", "statement": "After the three passes over the netlist (semantic0, semantic1, semantic2) every instance has as child the module that is its template and every module has as parents exactly the modules with an instance of it; every net that is no supply is listed once with exactly its pins and terminals; every pin and terminal holds the index of its net, or none on a supply; every supply of a module is one power net of the kind of the first signal that names it; symmetric nets name each other. The passes end exactly when every instance has a template, every global signal is supply0 or supply1 and symmetric nets are nets that are no supplies. Not so: with two modules of one name parents and children disagree; a symmetric net that is a supply is read out of bounds; in two symmetric pairs the counterparts disagree; a supply is known by its name only, in every module; a signal given twice leaves an empty power net.", "quantifier": "all lists of modules, top names, global signals and symmetric pairs", "why_tests_cant": "Tests place a few example circuits; the order of nets, supplies in any position, terminals on no net and repeated names have no end of combinations, and a wrong index shows only as a bad wire.", "anchors": ["PlaceRouteHierFlow/PnRDB/PnRdatabase.cpp:1533-1715", "align/pnr/build_pnr_model.py:103-107", "align/pnr/build_pnr_model.py:154-158"]}
{"id": "C86", "title": "Variants of the blocks from the map and the LEF data", "statement": "A block whose template is in the map gets one instance per file, in the order of the map, with the size and pin geometry of the LEF macro named by the stem of the file; capacitors by name and modules stay as they were; the merge fails exactly when a file of a block has no LEF macro. The stem is the file name without directories and last extension for every path shorter than 2^32 - 1, in spite of the mixed widths of its indices. Not so: a leaf that the map lacks loses its only instance and nothing stops; of several with one template only the first is reported; a leaf with CAP in its name is left without size and without a message; a pin the macro lacks stays without geometry.", "quantifier": "all maps, LEF data, trees of blocks and paths", "why_tests_cant": "The wrap-around of unsigned indices shows only for paths of a special form; missing entries in the map depend on earlier stages.", "anchors": ["PlaceRouteHierFlow/PnRDB/PnRdatabase.cpp:1757-1847", "align/pnr/build_pnr_model.py:109-124"]}
{"id": "C87", "title": "The layout that is checked is the flat layout", "statement": "When gen_viewer_json reports no errors of its own, the layout that it hands to the LVS and DRC checks contains, for every block, exactly one copy of every terminal of the block's layout file (except the layer 'boundary') at the block's position and with the net that the netlist gives it, plus exactly the shapes of routes, pins, vias and power grid; scaling between the database's and the PDK's units is exact. Two nets of blocks share a name only if the netlist or a supply joins them. Through any number of hierarchy levels, every wire of a primitive lies inside a wire of the top layout at the product of the positions and with the name found by following the netlists, and on each wiring layer the metal of the top layout is exactly the metal drawn anywhere in the hierarchy. A route on M1 to M6 is reported exactly when its centre, rounded down to a database unit, is off grid.", "quantifier": "For all netlists, placements, layout files, hierarchies of any depth, scale factors and grids.", "why_tests_cant": "Tests run a few designs through the flow and compare with golden layouts; they do not cover all placements, orientations, depths and name collisions.", "anchors": ["align/pnr/checkers.py:14-24", "align/pnr/checkers.py:27-326", "align/pnr/main.py:22-78"]}
{"id": "C88", "title": "The enumerated search of the placer is exhaustive", "statement": "When the C++ placer decides to enumerate instead of annealing, it evaluates every pair of sequences of the blocks together with every choice of variants (blocks of one template group with the same variant) exactly once, then stops, and returns the nodeSize smallest different costs found, each with a candidate of that cost. With ordering constraints it evaluates only pairs in which every constraint holds (left of, or above), all of them if and only if there are at least as many admissible positive as negative sequences, and each exactly once if the numbers are equal, which holds when all constraints have one direction. Constraints are left out only when no pair satisfies them. Without constraints the iteration limit is not reached if it is at least the limit given to the enumerator.", "quantifier": "For all numbers of blocks, variants, template groups, ordering constraints, iteration limits, cost functions and result sizes, and every content of the uninitialised member.", "why_tests_cant": "Tests run small designs and compare the final cost; an enumeration that misses or repeats candidates, or that wrongly declares itself feasible, still yields a layout.", "anchors": ["PlaceRouteHierFlow/placer/SeqPair.cpp:11-245", "PlaceRouteHierFlow/placer/SeqPair.cpp:1277-1280", "PlaceRouteHierFlow/placer/SeqPair.cpp:1711-1722", "PlaceRouteHierFlow/placer/Placer.cpp:249-269", "PlaceRouteHierFlow/placer/Placer.cpp:433-444", "align/pnr/placer.py:30-31"]}
{"id": "C89", "title": "Symmetry groups and annealing moves keep every block and every mirror image", "statement": "The symmetry groups of the C++ placer hold every pair and every self-symmetric block of the constraints once, and two of them are in one group exactly if constraints link them; a group has the axis of one of its constraints, and of all if linked constraints agree. The first sequence pair has every block and every axis node once in both sequences, and blocks of one template group have one variant. Every sequence of annealing moves (choice of a variant, moving a block, exchanging blocks of a group with their counterparts, exchanging two groups) keeps this if no block is in two groups, and keeps the pair symmetric-feasible: of every group, the negative sequence is the mirror image of the positive one (backwards for a vertical axis). No block is in two groups if the constraints give each block one partner or one mark.", "quantifier": "For all constraints, groups, numbers of blocks and variants, template groups, and all sequences of moves with all random choices.", "why_tests_cant": "The moves are random and a state that lost a block or its symmetry is usually rejected later by the cost or the ILP, so that tests only see a worse layout.", "anchors": ["PlaceRouteHierFlow/placer/design.cpp:1306-1334", "PlaceRouteHierFlow/placer/design.cpp:1554-1758", "PlaceRouteHierFlow/placer/SeqPair.cpp:390-425", "PlaceRouteHierFlow/placer/SeqPair.cpp:427-555", "PlaceRouteHierFlow/placer/SeqPair.cpp:605-669", "PlaceRouteHierFlow/placer/SeqPair.cpp:1692-2110"]}
{"id": "C90", "title": "Keeping the ordering constraints in the sequence pair", "statement": "If KeepOrdering reports success, the sequence pair keeps all ordering constraints. Its topological sort lists all blocks in order if the edges have no cycle, for all shuffles, and otherwise the blocks that depend on no cycle. With ordering constraints only, which some sequence pair meets, it succeeds from every sequence pair, and only blocks of constraints change their places. With symmetry, alignment and abutment constraints it ends, keeps every block in the positive sequence if the edges there are acyclic and between constrained blocks, and succeeds if moreover the edges for the negative sequence are acyclic and there are no abutments.", "quantifier": "For all designs, sequence pairs, shuffles and random pivots.", "why_tests_cant": "The sequences are random and a wrong one is mostly rejected by later checks; the loops and their cycle detection are only entered for particular combinations of constraints.", "anchors": ["PlaceRouteHierFlow/placer/SeqPair.cpp:683-1279"]}
{"id": "C91", "title": "The tests that reject sequence pairs", "statement": "A sequence pair that has a placement with the symmetry and alignment constraints of the design (rectangles of positive size that lie as the sequences say, pairs mirrored about one axis per group, aligned at an edge or in the middle) is not rejected by CheckAlign, nor by CheckSymm if abutted symmetric blocks have a total width of a multiple of four grid units and no pair of a horizontal axis is vertically nested in another pair of that axis. If the symmetry constraints are met, the groups made of them are. Symmetric-feasible sequence pairs pass the group tests for vertical axes and for axes with one pair.", "quantifier": "For all designs, sequence pairs and placements.", "why_tests_cant": "A wrongly rejected sequence pair only makes the search worse or fail; no output shows it, and the pairs are drawn at random.", "anchors": ["PlaceRouteHierFlow/placer/SeqPair.cpp:1291-1600", "PlaceRouteHierFlow/placer/SeqPair.cpp:1602-1690"]}
{"id": "C92", "title": "The integer program of the placement", "statement": "Every solution of the rows and bounds that the placer hands to the solver for a sequence pair puts the blocks as the sequence pair says, at their required distances (touching where they abut) and without overlaps, with allowed flips and opposite flips of mirrored pairs, on the offsets of their grids and in the order of the ordering constraints; net variables enclose the pins as flipped. A symmetry group is mirrored exactly if the sizes along the axis are equal and those across it leave the same rests, an alignment kept exactly if it is at an edge or the rests by two agree. The first lower-left solution is inside the placement box but for the halo. Conversely, under conditions that name the rounding and the two errors in the vertical ordering rows, every legal placement is a solution. A sequence pair with a solution passes the tests of C91.", "quantifier": "For all designs, sequence pairs, modes (lower left or upper right, snapping, earlier points) and assignments.", "why_tests_cant": "The rows are built by index arithmetic over columns; a wrong row shows only as an infeasible or slightly shifted placement for particular sizes.", "anchors": ["PlaceRouteHierFlow/placer/ILP_solver.cpp:1733-1854", "PlaceRouteHierFlow/placer/ILP_solver.cpp:1905-2138", "PlaceRouteHierFlow/placer/ILP_solver.cpp:2140-2545", "PlaceRouteHierFlow/placer/design.h:301-312"]}
{"id": "C93", "title": "The placement flow: two passes, styles, rounding, limits", "statement": "For every design and every solver that returns only solutions of the integer program (C92): without offset grids a returned placement is on the routing grid in x and y; if there are no symmetry pairs, or the black-box flow is used, or the first pass was off the grid, it has every property of a solution (no overlaps, distances, flips, orders, mirrored groups, alignments). The wire length of a net is half the perimeter of the box around its pins if blocks are non-negative and the net has a pin. Findings: rounding the pairs to the grid is not checked and can make blocks overlap or break a horizontal-axis pair; centre placement without snapping always equals left placement and the slack points never reach the solver; right placement puts all blocks at or below zero, where the aspect ratio and box limits hold vacuously and the wire length is measured from zero; a net without block pins has a negative length; a single block ignores its flips and offsets.", "quantifier": "for all designs, styles, solvers, initial states", "why_tests_cant": "The solver, the styles and the rounding interact only in rare off-grid cases; the black-box tests use left placement on the mock PDK.", "anchors": ["PlaceRouteHierFlow/placer/ILP_solver.cpp:2773-3031", "PlaceRouteHierFlow/placer/ILP_solver.h:60-82"]}
{"id": "C94", "title": "Placement constraints on their way to the placer and back", "statement": "For every list of user constraints that the writer translates, the design that the C++ reader and the design constructor make of it satisfies the conditions of C92, and each placement given by a solution of its integer program meets, when the placement is checked in nanometres, the formula of each constraint: orders always, alignments at an edge always (in the middle for even boxes), spreads unless the blocks abut or a later spread is smaller, symmetric blocks for sizes that need no rounding, the boundary if it is the last and given in half nanometres. A design is built exactly if all directions and lines are supported. Orders that the placer adds for partners and aligned blocks follow from the given ones if pairs have vertical axes and the aligned blocks their first variants. Findings: 'horizontal'/'vertical' orders are read as one fixed direction; a block ordered between the two blocks of a pair with horizontal axis makes the program infeasible though an acceptable placement exists; heights of the wrong variant exclude acceptable placements; a later spread replaces a larger one; vertical order with abutment and spacing is infeasible.", "quantifier": "For all constraint lists, block sizes, sequence pairs, modes and solutions.", "why_tests_cant": "The constraints pass through JSON, unit changes and index maps in two languages; tests compare a few placements of one design.", "anchors": ["align/pnr/write_constraint.py:44-178", "PlaceRouteHierFlow/PnRDB/ReadConstraint.cpp:228-355", "PlaceRouteHierFlow/PnRDB/ReadConstraint.cpp:604-661", "PlaceRouteHierFlow/placer/design.cpp:201-378", "align/schema/constraint.py:120-560"]}
{"id": "C95", "title": "Sequence pairs reach every placement", "statement": "Every set of positive rectangles that keep the spacing has a sequence pair whose order relations it obeys, and a placement that obeys the relations of some sequence pair keeps the spacing. Every such sequence pair keeps each order that the user demands of two blocks that face each other. So each well-placed floorplan is a solution of the placer's integer program for some sequence pair that the enumeration visits, and the exhaustive search returns a result whose cost is no worse than that of any well-placed floorplan. Two exceptions are proved: an order between blocks that do not face each other, and a minimum spread between such blocks, can make a floorplan that meets all constraints unreachable.", "quantifier": "for all numbers of blocks, sizes, positions, spacings and constraint lists, and all solvers that return optimal solutions", "why_tests_cant": "The existence of a sequence pair is a statement about all geometric arrangements of all numbers of rectangles; a test can only try some of them, and none can show that the search space misses no placement.", "anchors": ["PlaceRouteHierFlow/placer/SeqPair.cpp:11-245", "PlaceRouteHierFlow/placer/Placer.cpp:249-269", "PlaceRouteHierFlow/placer/ILP_solver.cpp:1733-2545"]}
{"id": "C96", "title": "Visitors of the schema walk shared trees", "statement": "A transformer applied to a tree of schema objects returns a tree that is the old one with the replaced leaves, leaves every old object as it was, returns the node itself exactly if no leaf is replaced and a new object otherwise, expands each model, List and Dict once, and gives the same result wherever the same such object occurs. It succeeds exactly for trees without cycles whose nodes are all of known types. A visitor returns the results for the leaves in order, once for each occurrence. Exceptions are proved: a List shared by two models is not shared by their copies; a changed List outside a model becomes a plain list; a visitor that is used twice takes new objects for old ones with the same id; a float stops every visitor.", "quantifier": "for all heaps of objects, all trees in them and all visitor methods on leaves", "why_tests_cant": "Sharing and identity of arbitrary object graphs, and the life time of ids, cannot be covered by examples.", "anchors": ["align/schema/visitor.py:1-151"]}
{"id": "C97", "title": "The global router: shortest paths and connecting trees", "statement": "In the graph of tiles of the global router (GlobalGraph.cpp) vertex k is tile k and edges lead exactly to neighbours with capacity, weighted with the Manhattan distance, also after dropping tiles outside the layers of a net as long as the kept tiles come first. A path search between two sets of tiles gives a shortest path or reports that none exists, and leaves the graph as it was. The tree of MST connects all terminals of all pins with edges of the graph; FindSTs returns as many trees as asked, each connects the original pins whatever Steiner nodes are chosen, all succeed when the pins and candidates can be connected, and the weights are restored afterwards. False of the code: dropping low layers shifts the indices so that neighbours are not connected; the first Steiner node is added even if it makes the tree longer; the wire length compared is that of the last candidate, not of the best; only the last path can be joined, so a tree may use and count an edge twice.", "quantifier": "for all tile lists, layer ranges, pins, candidates and numbers of trees (graphs of any size)", "why_tests_cant": "Correctness of a shortest path search and of the trees depends on all graphs and all orders of relaxation; tests route a few small designs and look at the picture.", "anchors": ["PlaceRouteHierFlow/router/GlobalGraph.cpp:17-615", "PlaceRouteHierFlow/router/GcellGlobalRouter.cpp:533-604"]}
{"id": "C98", "title": "The grid of the global router covers the chip once on each layer, its graph is symmetric, and pins belong to exactly the tiles they overlap", "statement": "For every proper set-up of the global router the constructor of the grid succeeds and gives the tiles of all layers in column-major order, each with the position, size, metals and neighbour edges with the capacities that the design rules give. Every point of the box lies in exactly one tile of each layer. A pin inside the box on a metal of the grid is mapped to exactly the tiles of its layer that it overlaps. The graph made of the grid has an edge exactly where a capacity is positive, only between tiles next to each other, and each with its reverse; the graph of the layers of a net is right when it starts at the lowest metal. Metal shapes only lower capacities, never below zero, and no shape leaves the grid as it is. Refuted: pins on metals outside of the grid are rejected (they get tiles of the lowest layer); a via takes room from its own tile; metal counts when the box is offset; an edge and its reverse keep equal capacities.", "quantifier": "all setups (design rules, boxes, metal ranges, metals per layer, scales), all points, all pins, all sets of metal points", "why_tests_cant": "The grid depends on the chip size, the design rules and the order of nested loops; a few layouts start at the origin and hide the offset errors.", "anchors": ["PlaceRouteHierFlow/router/GlobalGrid.cpp:113-663", "PlaceRouteHierFlow/router/GcellGlobalRouter.cpp:470-525", "PlaceRouteHierFlow/router/GlobalGraph.cpp:336-366"]}
{"id": "C99", "title": "The path search of the detailed router ends, and a path it gives is legal", "statement": "Take a grid whose neighbours on a metal are the next nodes of a track and whose neighbours above and below lie at the same place, with a via above each metal in use. Started with no costs and no parents, the search ends, stays within defined behaviour and leaves costs and parents empty again. A path it gives goes from a source to a destination over free nodes, each at most once, with no other source or destination inside; every inner stretch on one metal is as long as the minimum or can be extended over free nodes of its track, and two vias to the same metal keep their distance. Its lines are exactly the stretches of the path, each straight, each meeting the next at a via, with one label in 0..3 for each, which tells whether the line is long enough and at which ends it has the room to be extended. Without rules on lengths and vias a path is found whenever there is one. Not so: on the highest metal the cost reads the via with index -1; with rules on vias a legal path can be missed; the path need not have the least resistance; the last check of a path accepts vias the first one refuses; and for a shielded net there are fewer labels than lines.", "quantifier": "for all grids, technologies, sources, destinations, symmetric paths, and numbers of steps", "why_tests_cant": "The router is run on a few layouts; that a search ends for every grid and that a path is legal in every one of them is not a statement about some runs.", "anchors": ["PlaceRouteHierFlow/router/A_star.cpp:17-1858", "PlaceRouteHierFlow/router/A_star.h", "PlaceRouteHierFlow/router/GcellDetailRouter.cpp:459-530"]}
{"id": "C100", "title": "The grid of the detailed router holds exactly the crossings of the global path", "statement": "For a metal, the tracks are exactly the longest runs of tiles of the global path in a column (row) of its tile layer. Its nodes are exactly the crossings of its lines with lines of the metals next to it, inside the boxes of its tracks clipped to the chip; with tiles in regular columns and rows every tile of the path is covered, and no crossing is there twice if the tracks do not meet. The neighbour of a node is the next crossing of its line, with none between, any two such crossings of a track are joined, and links go both ways. A via goes up to the first node of the next metal at the same place, and comes down again if no crossing is there twice. Lists of points change only the flags: a node is off iff a list blocks it and no later one opens it. On such a grid the path search of C99 is well-defined and its wires and vias join only points of the grid that are not blocked. Not so: where two tracks meet on a line the crossings are there twice and the via up from the first copy comes down at the other; and with negative coordinates crossings are dropped because the remainder is negative.", "quantifier": "for all tile grids, global paths, metals, units, offsets, chip boxes and sequences of point lists", "why_tests_cant": "Tests route a few designs; that no crossing is missing or wrongly linked for any global path and any pitch cannot be seen from them.", "anchors": ["PlaceRouteHierFlow/router/Grid.cpp:3140-3553", "PlaceRouteHierFlow/router/Grid.cpp:270-328", "PlaceRouteHierFlow/router/GcellDetailRouter.cpp:1012-1059"]}
{"id": "C101", "title": "Routed wires keep their space to obstacles", "statement": "Given obstacles, the detailed router takes out exactly the first node at each point near an obstacle: on a line nearer than the pitch less half a wire, at a crossing between the widened ends or the last one before them. If lines have no offset, no crossing is there twice, and no obstacle of a horizontal metal lies between two crossings, then each wire of a path found on that grid, extended as its label tells and still on its track, is drawn as a rectangle of the width of the metal which keeps pitch minus width at the sides and the end space at the ends of each obstacle, unless a point near that obstacle was opened again. An extended wire grows only at the ends the label names, to the least length (one less for an odd difference at both ends). Vias are exactly the points where lines of metals next to each other end together, each once, so each line of a path has a via to the next. Not so: a point without node takes out node 0; with offsets nothing is blocked and a path goes over the obstacle; narrow obstacles on horizontal metals are not blocked, as the end of the loop comes from the wrong coordinate; of two nodes at one place only one is blocked; odd differences leave wires too short; a wire is extended off its track and out of the chip; a metal taken out is there again from the second connection on.", "quantifier": "for all rules, obstacles, tile grids, global paths, point lists, sources and destinations", "why_tests_cant": "Tests route a few designs; that no obstacle is ever overlapped for any pitch, offset and place of obstacle cannot be seen from them.", "anchors": ["PlaceRouteHierFlow/router/GcellDetailRouter.cpp:180-235", "PlaceRouteHierFlow/router/GcellDetailRouter.cpp:434-497", "PlaceRouteHierFlow/router/GcellDetailRouter.cpp:537-687", "PlaceRouteHierFlow/router/GcellDetailRouter.cpp:3234-3435", "PlaceRouteHierFlow/router/GcellDetailRouter.cpp:4332-4437"]}
{"id": "C102", "title": "A guard ring is closed and keeps its space to the node", "statement": "The cells of the guard ring are exactly those of a frame of the least number of columns and rows that leaves the node room (its size, twice the space and what the cell has behind its metal, and one grid), each once; the metals of cells next to each other abut all the way round, and no two overlap. The node moves as a whole by a multiple of the grid; the gaps to the ring are given exactly, and are at least the space less half a grid for the metal. Where the rounded move leaves enough at the lower sides, the metal keeps the whole space, and the cells too if their metal is not nearer to the upper end. The ring lies in the new box of the node exactly if the cell has as much below its metal as above it, with one more for an odd rest. Not so: rounding down to the grid lets cells overlap the node; cells that are not symmetric come too near at the right and the top; the ring sticks out of the box by one; a cell holds the pins of all cells before it; the axes of symmetric nets are not moved.", "quantifier": "for all sizes of nodes and of guard ring cells, spaces and grids", "why_tests_cant": "Tests have a few nodes with one cell; that the ring closes and keeps its space for each size, and where it does not, depends on roundings that they do not reach.", "anchors": ["PlaceRouteHierFlow/guard_ring/GuardRing.cpp:4-83", "PlaceRouteHierFlow/guard_ring/GuardRing.cpp:85-160", "PlaceRouteHierFlow/guard_ring/GuardRing.cpp:181-234", "PlaceRouteHierFlow/guard_ring/GuardRing.cpp:237-279", "align/pnr/placer.py:58-66"]}
{"id": "C103", "title": "Common-centroid placement of unit capacitors", "statement": "The capacitor placer gives each net as many cells of the grid as it has unit capacitors, no cell twice, and the dummy net all others; it does so exactly if the grid has room. A net with an even number of unit capacitors has its cells opposite to each other, so its centroid is the middle of the grid; a net with an odd number has one cell too many, which is one of the nearest to the middle. All grids the placer tries by itself have room. But full grids such as 3 by 3 for nine are tried only if no other grid is, the same grid may be tried twice, and a user's ratio that is too small makes the placer read out of bounds.", "quantifier": "all numbers of nets and unit capacitors, all grids, with and without dummy capacitors", "why_tests_cant": "the placements depend on the parity of all nets together and on the order of ties in the sort by distance", "anchors": ["PlaceRouteHierFlow/cap_placer/capplacer.cpp:241-335", "PlaceRouteHierFlow/cap_placer/capplacer.cpp:604-743", "PlaceRouteHierFlow/cap_placer/capplacer.cpp:1835-1880", "align/pnr/cap_placer.py:19"]}
{"id": "C104", "title": "Vertical routing lines of the capacitor array", "statement": "The router of the capacitor array divides the cells of each net into sets, which are exactly the connected components under neighbourhood. Every net that gets lines has one beside each of its sets; a net for which one line and the opposite line are enough gets just such a pair. The positive sides always get their lines, and so do the negative ones if a pair is enough for each net. The wires on one line fit between the two columns at the minimum distance from the cells and from each other, and the capacitors to its left and right agree on their places. But a negative side may get no line, which is a failed assertion, because the limit is the number of nets; a net placed about the middle may get lines that are not symmetric; and an empty dummy net takes lines.", "quantifier": "all numbers of nets and unit capacitors, all grids and placements, all widths and distances", "why_tests_cant": "which lines are free depends on the lines of all earlier nets; the assertion fails only for certain numbers of unit capacitors", "anchors": ["PlaceRouteHierFlow/cap_placer/capplacer.cpp:745-1008", "PlaceRouteHierFlow/cap_placer/capplacer.cpp:1127-1200", "PlaceRouteHierFlow/cap_placer/capplacer.cpp:1407-1421"]}
{"id": "C105", "title": "Linear system of the IR-drop simulator", "statement": "The potentials of the solutions of the linear system that the IR-drop simulator builds are exactly those of the network of its devices, by Ohm's law, the sources and Kirchhoff's current law; nodes joined by resistors to a source have one potential only; the matrix is symmetric; its entries never need more places than are made, and fill them if no two resistors are parallel and every node has one. The devices of a power grid make such a system if Vdd and ground have as many points as each other. But with unequal numbers the system has solutions that the network does not have, so that a ground point is at half of Vdd; parallel wires leave uninitialised places; the second of two loads at one place is left out; and a power point may be none of the grid.", "quantifier": "all lists of devices with values in the rationals, all power grids and loads", "why_tests_cant": "wrong rows show up as slightly different voltages, which no test compares; unequal numbers of points need a particular grid", "anchors": ["PlaceRouteHierFlow/MNA/MNASimulation.cpp:47-191", "PlaceRouteHierFlow/MNA/MNASimulation.cpp:409-441", "PlaceRouteHierFlow/MNA/MNASimulation.cpp:558-612", "PlaceRouteHierFlow/MNA/MNASimulation.cpp:663-690", "PlaceRouteHierFlow/MNA/MNASimulation.cpp:776-837"]}
{"id": "C106", "title": "Rectangles of the Hanan router: set operations, distance, merging", "statement": "A constructed rectangle is the smallest one with the two corners; intersect is valid iff there is a common point and then gives exactly the common points; overlaps and contains say that there is a common point, and that all points are shared; merge is the smallest rectangle around both; Dist is the Manhattan distance of the nearest points; a transformation maps the points of a rectangle exactly; snapping gives the smallest rectangle on the grid around one with non-negative coordinates (with negative coordinates it loses a part); MergeLayerRects covers on each layer exactly the union of the rectangles and adds at most as many as it is given, but may leave rectangles contained in others.", "quantifier": "all rectangles, transformations, grids, and lists of rectangles on any layers", "why_tests_cant": "Coverage must hold for every arrangement of rectangles; tests fix a few, and none has negative coordinates or a rectangle joined to one that then contains a third.", "anchors": ["PlaceRouteHierFlow/hanan_router/Geom.h:22-250", "PlaceRouteHierFlow/hanan_router/Geom.cpp:7-75"]}
{"id": "C107", "title": "The Hanan router joins the ports of a net by a minimum spanning tree", "statement": "For a net of at least two ports, all with shapes, that is not a single point, reorderPorts gives a spanning tree of the ports, one pair fewer than ports, sorted by distance: of least total distance among all sets of pairs that join the ports, with the least longest pair on the way between any two ports, and a nearest pair first. The distance is that of the nearest shapes plus a part for each layer, by ten for a virtual port. A single port reads out of bounds, and a port without shapes makes the loop run for ever. For clock nets each port but the first of the driver is joined to that one once, the farthest first; if no pin has the name of the driver nothing is joined.", "quantifier": "all lists of ports with any shapes, and all pins", "why_tests_cant": "Minimality compares with all sets of pairs, and the loop must end for every net; tests route a few nets and do not look at the order.", "anchors": ["PlaceRouteHierFlow/hanan_router/Net.cpp:28-138", "PlaceRouteHierFlow/hanan_router/Net.cpp:140-175"]}
{"id": "C108", "title": "The free ranges of the Hanan grid", "statement": "insertRange keeps the ranges of a set apart and covers exactly the old ranges and the new one. On each line of the grid a point of the box on no obstacle is in a free range, and a point of a free range, below the upper end of the box, is inside no obstacle. The lines are in the box, at the snapped sides of obstacles or at sources and targets. At the upper end of the box a point inside an obstacle is free, and free ranges leave the box and run through obstacles there.", "quantifier": "all boxes, obstacles and lines", "why_tests_cant": "It is a statement about every point of every line; tests see the wires that the router happens to draw.", "anchors": ["PlaceRouteHierFlow/hanan_router/HananRouter.cpp:1001-1117", "PlaceRouteHierFlow/hanan_router/HananRouter.h:211-217"]}
{"id": "C109", "title": "The steps of the Hanan router stay in free ranges", "statement": "A step from a node on a line of the grid is in a direction of the layer, does not start before the box, goes strictly forward and stays in one free range of the line, so that no point of it in the box, below the upper end, is inside an obstacle of the layer. A target on the line in the free range of the node is reached in one step, and a node in no free range makes no step. A node on no line of the grid goes to the end of the box through the obstacles.", "quantifier": "all grids, nodes, obstacles, targets and lines of adjacent layers", "why_tests_cant": "It is about every node that the search may reach; tests see the wires of a few layouts.", "anchors": ["PlaceRouteHierFlow/hanan_router/HananRouter.cpp:780-836", "PlaceRouteHierFlow/hanan_router/HananRouter.cpp:862-998"]}
{"id": "C110", "title": "Rectangles and grid indices in the python router", "statement": "rect_to_grid gives indices of lines at the centre, begin and end of a rectangle; the rectangle of a wire segment gives back the indices of the segment, and a move by whole periods changes only their whole parts. The width of the rectangle and half a unit of its centre are not looked at.", "quantifier": "all wires with periodic, increasing grids, all rectangles, segments and moves", "why_tests_cant": "The grids are unbounded and rectangles may lie on negative coordinates; tests use a few pins of one technology.", "anchors": ["align/pnr/pythonic_router.py:113-132", "align/cell_fabric/generators.py:11-33"]}
{"id": "C111", "title": "Metal templates of the routing collateral", "statement": "The widths, spaces and offset of a template give back the legal centre lines of the wire, and with even widths each space is the distance of facing edges; from the stop offset the stops reach exactly the legal stop lines and add up to one period if the last stop line is not legal or the first one is. It fails exactly without a legal stop line or with a legal centre line without width. The offset is not written, colours of some lines only are written without saying whose, and the stops may be short of a period.", "quantifier": "all wires, all grids", "why_tests_cant": "Tests compare the text of templates for a few grids; grids and legal indices are unbounded.", "anchors": ["align/cell_fabric/routing_collateral.py:4-72", "align/cell_fabric/grid.py:66-74"]}
{"id": "C112", "title": "Order of the primitives for matching", "statement": "order_lib gives every subcircuit of the library once; more elements come first, then fewer nets, then more models, and those of the same rank keep the order of the library. It fails exactly if a subcircuit has no net. The generator of a primitive is that of its own name, else the last one named in a constraint, which need not exist.", "quantifier": "all libraries, subcircuits, constraints and sets of generators", "why_tests_cant": "Tests use the library that comes with the program; any library may be read.", "anchors": ["align/compiler/read_library.py:49-74", "align/schema/subcircuit.py:24-29", "align/schema/subcircuit.py:44-46"]}
{"id": "C113", "title": "Layers written for the detailed router", "statement": "A set of layers is valid exactly if every via joins two metals of different directions. The connections written for a layer are exactly the layers joined with it by a via, and are symmetric; the levels count up from 2 in the order M0, V0, M1, V1, ..., M98, V98 of the layers that exist. The writing fails exactly if one of these layers is joined with nothing or a via has the name of a metal. Vias of other names are referred to but not written, and the level of a via need not lie between those of its layers.", "quantifier": "all valid sets of layers", "why_tests_cant": "Tests write the files of one pdk; the layers and vias of a pdk are arbitrary.", "anchors": ["align/schema/pdk.py:106-119", "align/schema/pdk.py:191-250"]}
