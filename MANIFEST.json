{"claims": [
{"property": "C01", "status": "proved", "theorems": ["C01_mult_is_composition", "C01_mult_unique", "C01_post_pre", "C01_assoc_identity", "C01_rect"], "note": "Transformation over integers. C01_mult_unique: no other transformation acts like the product."},
{"property": "C02", "status": "proved", "theorems": ["C02_inverse", "C02_inverse_needs_unit"], "note": "C02_inverse_needs_unit shows that the +1/-1 hypothesis is needed."},
{"property": "C03", "status": "proved", "theorems": ["C03_placed_rect", "C03_disjointness", "C03_containment", "C03_canonical_early_late"], "note": "Legal orientations are scale factors +1/-1. Membership of points is over closed rectangles."},
{"property": "C04", "status": "proved", "theorems": ["C04_genTr_footprint", "C04_tags", "C04_gen_transformation", "C04_offset_origin_refuted"], "note": "The block box is mapped exactly when its origin box starts at 0; C04_offset_origin_refuted shows the code is wrong otherwise."},
{"property": "C05", "status": "proved", "theorems": ["C05_canvas_program", "C05_block_restores_stack"], "note": "Programs are trees of add and pushTr..popTr blocks; generators enter by the terminals they add."},
{"property": "C06", "status": "proved", "theorems": ["C06_inverseBounds_brackets"], "note": "Grid coordinates are integers; the bisect of the legal indices is modelled by its definition on strictly increasing lines."},
{"property": "C07", "status": "proved", "theorems": ["C07_roundtrip", "C07_roundtrip_back", "C07_strictly_increasing", "C07_periodic", "C07_tuple_index", "C07_library_grids"], "note": "C07_library_grids shows that the grids of the library meet the hypotheses."},
{"property": "C08", "status": "proved", "theorems": ["C08_snap_index", "C08_snap_coordinate", "C08_ends_disagree_refuted", "C08_nonmonotone_refuted"], "note": "Index-level claim holds for all grids; coordinate-level claim needs increasing grids with agreeing end legality (refutations show both conditions are needed)."},
{"property": "C09", "status": "proved", "theorems": ["C09_same_metal", "C09_regions_unchanged", "C09_other_layers_dropped"], "note": "Holds for every wiring layer of the canvas, points taken over the rationals; regions are unchanged; layers unknown to the canvas are dropped (C09_other_layers_dropped)."},
{"property": "C10", "status": "proved", "theorems": ["C10_normalised", "C10_idempotent"], "note": "Per scan line, under no reported short and equal widths. Idempotence is on the emitted rectangles."},
{"property": "C11", "status": "proved", "theorems": ["C11_short_reported", "C11_error_reported", "C11_shorts_genuine", "C11_refuted_with_terminal"], "note": "Complete for plain wires of one width on the track; other widths are reported as width errors; refuted when terminal markers are involved."},
{"property": "C12", "status": "proved", "theorems": ["C12_roots_are_closure", "C12_root_query_pure", "C12_queries_do_not_matter"], "note": "The list of parents is explicit, with path compression; root is total on every list that the operations can make."},
{"property": "C13", "status": "proved", "theorems": ["C13_names_survive", "C13_unnamed_gets_name", "C13_no_new_names", "C13_refuted_with_terminals"], "note": "Proved for tracks of plain wires; refuted with terminal markers."},
{"property": "C14", "status": "proved", "theorems": ["C14_min_length", "C14_min_spacing", "C14_via_column_spacing", "C14_via_row_spacing", "C14_after_remove_duplicates", "C14_overlapping_refuted"], "note": "Proved for tracks whose wires are separated (the state after duplicate removal); C14_overlapping_refuted shows the check misses violations on overlapping wires."},
{"property": "C15", "status": "proved", "theorems": ["C15_enclosure_exact", "C15_overlapping_refuted", "C15_bare_via_refuted"], "note": "Exact for ordered tracks; refuted for overlapping tracks, and C15_bare_via_refuted shows a KeyError for a via without metal."},
{"property": "C16", "status": "proved", "theorems": ["C16_track_number", "C16_first_run_column", "C16_later_run_column", "C16_genuine_column", "C16_first_run_row", "C16_later_run_row", "C16_genuine_row", "C16_refuted", "C16_two_tracks_refuted", "C16_exact_column", "C16_exact_row"], "note": "Exact in both directions (C16_exact_column, C16_exact_row; rows need vias with distinct left edges). The intended rule is false: C16_refuted misses a run of MaxAdjacent + 1 away from the start of the line, C16_two_tracks_refuted shows positions are grid periods, not tracks."},
{"property": "C17", "status": "proved", "theorems": ["C17_wire_cells", "C17_cells_from_wires", "C17_total_capacitance", "C17_total_resistance", "C17_ports_irrelevant", "C17_overrun_refuted"], "note": "Needs ports_ok (a wire with a port beyond its start has one inside); C17_overrun_refuted shows the claim fails otherwise."},
{"property": "C18", "status": "proved", "theorems": ["C18_agree", "C18_clash_refuted"], "note": "C18_agree under no clash of formal and global names; C18_clash_refuted exhibits a clash for which the two computations differ."},
{"property": "C19", "status": "proved", "theorems": ["C19_exact", "C19_order_independent", "C19_invariant", "C19_monotone", "C19_update", "C19_point"], "note": "Over integers, including the empty accumulator."},
{"property": "C20", "status": "proved", "theorems": ["C20_exactly_once", "C20_children_first"], "note": "Acyclic hierarchies; the recursion is modelled with fuel and shown to need no more than the number of modules."},
{"property": "C21", "status": "proved", "theorems": ["C21_instance", "C21_module", "C21_hierarchy", "C21_checker"], "note": "C21_checker ties the computed constraint to what checker.py tests on the flattened leaves."},
{"property": "C22", "status": "proved", "theorems": ["C22_merge_conjunction", "C22_check", "C22_periodic", "C22_directions", "C22_unnormalised_refuted"], "note": "C22_unnormalised_refuted: with offsets outside of the pitch the merged terms lose placements."},
{"property": "C23", "status": "proved", "theorems": ["C23_solution", "C23_enumerated", "C23_reported", "C23_rounding_refuted"], "note": "Exact for all solutions; the reported (rounded) boxes are disjoint for integer positions. C23_rounding_refuted: an optimal half-integer solution is reported with overlapping boxes."},
{"property": "C24", "status": "proved", "theorems": ["C24_order", "C24_complete", "C24_floorplan", "C24_floorplan_symmetric", "C24_on_boundary", "C24_align_in_order", "C24_vertical_refuted"], "note": "Soundness and completeness of the enumeration; networkx's topological sorts are modelled. C24_vertical_refuted: vertical AlignInOrder is top to bottom, contrary to its documentation."},
{"property": "C25", "status": "proved", "theorems": ["C25_on_grid", "C25_check", "C25_check_exact", "C25_complete"], "note": "Sound and complete for validated constraints."},
{"property": "C26", "status": "proved", "theorems": ["C26_same_variant", "C26_merge", "C26_refuted", "C26_merge_refuted", "C26_limit_ignored"], "note": "Holds when each set meets at most one earlier class (chained); C26_refuted and C26_merge_refuted show that bridging sets break it. The limit on the number of variants has no effect."},
{"property": "C27", "status": "proved", "theorems": ["C27_box", "C27_points", "C27_offset_refuted", "C27_fraction_refuted"], "note": "For blocks with their box at the origin and integer positions; refuted otherwise."},
{"property": "C28", "status": "proved", "theorems": ["C28_exact", "C28_order_independent", "C28_again", "C28_stale_refuted"], "note": "The propagated set is the least fixpoint and independent of module order for a fresh start; C28_stale_refuted: stale annotations from an earlier run are kept."},
{"property": "C29", "status": "proved", "theorems": ["C29_exact", "C29_closed", "C29_idempotent"], "note": "Trimming keeps exactly the modules and leaves reachable from the kept tops; idempotent."},
{"property": "C30", "status": "proved", "theorems": ["C30_connectivity", "C30_two_supplies_refuted", "C30_capture_refuted", "C30_crossed_refuted", "C30_name_clash_refuted"], "note": "Total correctness (the pass succeeds and the whole flat netlist is unchanged) for acyclic designs without conflicting supplies or captured names; four refutations show each condition is needed."},
{"property": "C31", "status": "proved", "theorems": ["C31_merge", "C31_order_refuted", "C31_multiplicity_refuted", "C31_again_refuted"], "note": "C31_merge: with multiplicities 1 and equal devices listed in name order, for every net order. Three findings proved: another listing order removes the wrong device; existing multiplicities are ignored; a merge found again through a second net drops the count."},
{"property": "C32", "status": "proved", "theorems": ["C32_pass", "C32_one"], "note": "C32_pass: all netlists, any net order: success, only internal nets vanish, counts add up, same solutions on remaining nets for every interpretation of the devices, nothing stackable left. C32_one: exact effect of one merge."},
{"property": "C33", "status": "proved", "theorems": ["C33_completes", "C33_flat", "C33_child", "C33_arrays", "C33_clash_refuted"], "note": "Proved for every well-formed library and every group of elements: the call succeeds when some net leaves the group (C33_completes); every subcircuit keeps its ports and its flat netlist up to the paths of devices and inner nets, injectively, and the library stays well formed and acyclic (C33_flat); the child holds exactly the group and its pins are exactly the nets that leave it (C33_child); any number of moves, such as array and templates (C33_arrays). Condition: no remaining element is called X_<child>; C33_clash_refuted shows two elements of one name otherwise. Constraints are not modelled."},
{"property": "C34", "status": "proved", "theorems": ["C34_values", "C34_two_levels", "C34_deep_refuted"], "note": "Proved for libraries in which a subcircuit that hands its own parameters down to subcircuits is used with one set of values (in particular all two-level designs, any number of instantiations). Refuted in general: the second, different use of a subcircuit copies elements whose inner values were already overwritten by the first use (C34_deep_refuted). Subcircuit constraints and generators are left out of the comparison of copies."},
{"property": "C35", "status": "proved", "theorems": ["C35_ends", "C35_listed", "C35_order", "C35_once", "C35_removed", "C35_completes", "C35_twice_refuted", "C35_fails_refuted", "C35_width_refuted"], "note": "Proved for every library and every order in which Python may enumerate the set of children. The traversal ends (C35_ends), lists exactly the single-instance hierarchies of the design (C35_listed), each after those below it (C35_order), once each when no subcircuit instantiates both such a hierarchy and something above it (C35_once). Removal then succeeds and keeps the flat netlist - devices, models, nets and parameters, up to the instance names on the paths - of every remaining subcircuit (C35_removed, C35_completes), under the stated condition 'transparent'. The claim as written is false: C35_twice_refuted shows that whenever the top instantiates a single-instance hierarchy directly and also something above it, some order lists it twice and remove_dummies then fails its assertion; C35_fails_refuted gives a KeyError (an inner net that is no port) and a validation error (a capacitor behind an instance called X1); C35_width_refuted shows a changed device width when the inner element computes a parameter from the hierarchy's parameter of the same name."},
{"property": "C36", "status": "proved", "theorems": ["C36_order", "C36_string", "C36_parts", "C36_own_primitive", "C36_shared", "C36_hash_refuted", "C36_string_refuted"], "note": "For any hash function: the hashed string determines the parameters when names have no '_' or ':' and values no ':' (C36_string), does not depend on their order (C36_order), the name determines the model and the eight digits (C36_parts), and every device gets a primitive with its own model and parameters if the truncated hash separates the devices of the design (C36_own_primitive). The claim as written is false: C36_hash_refuted (pigeonhole, for every hash function two transistors that differ in width share a name and the second gets the first's primitive), C36_string_refuted (separators are not escaped)."},
{"property": "C37", "status": "proved", "theorems": ["C37_revert", "C37_latest", "C37_unknown", "C37_remove_refuted"], "note": "Reverting to any live checkpoint after any history of appends, checkpoints and reverts restores list, commits and solver (C37_revert, C37_latest); unknown names are refused without change (C37_unknown). Refuted part: remove() leaves cache and solver untouched (C37_remove_refuted)."},
{"property": "C38", "status": "proved", "theorems": ["C38_as_if_never_added", "C38_again_refuted", "C38_removed_refuted", "C38_rejected_stays"], "note": "Behaviour after a revert equals that of a database that never saw the reverted constraints, for histories that do not add one of them again (C38_as_if_never_added). Refuted: a reverted constraint can not be added again because the cache keeps its text (C38_again_refuted, C38_removed_refuted); a rejected constraint's formula stays in the solver (C38_rejected_stays)."},
{"property": "C39", "status": "proved", "theorems": ["C39_order", "C39_order_abut", "C39_order_pair", "C39_horizontal_enough", "C39_horizontal_refuted", "C39_align_edges", "C39_align_center", "C39_align_center_exact", "C39_align_center_refuted", "C39_align_any_pair", "C39_align_any_refuted", "C39_symmetric", "C39_symmetric_mirror", "C39_symmetric_refuted", "C39_spread", "C39_spread_refuted", "C39_aspect", "C39_aspect_refuted", "C39_group", "C39_boundary", "C39_boundary_refuted"], "note": "Order (four directions, abut, two-instance undirected), Align on edges, SymmetricBlocks, Spread, AspectRatio and GroupBlocks equivalences hold. Refuted where formula and documentation differ: undirected order of three instances, centre alignment of odd sizes, h_any of three instances, symmetric pairs of different widths, Spread of overlapping blocks, upper bound of AspectRatio."},
{"property": "C40", "status": "proved", "theorems": ["C40_scalar", "C40_number", "C40_number_invert", "C40_roundtrip", "C40_log_empty", "C40_flat", "C40_no_overlap", "C40_inside", "C40_overlap_refuted", "C40_open_refuted"], "note": "Scaling divides with floor; round trip exact for multiples; error logged exactly when rounded. C40_overlap_refuted / C40_open_refuted: rounding instance offsets separately from box corners can create overlap or separate abutting blocks."},
{"property": "C41", "status": "proved", "theorems": ["C41_renumbered", "C41_references", "C41_succeeds", "C41_leaf_clash_refuted", "C41_no_leaf_clash", "C41_duplicate_refuted"], "note": "Distinct concrete names assumed for the numbering (refuted otherwise); exact success condition; a renamed module may take a leaf's name (refuted)."},
{"property": "C42", "status": "proved", "theorems": ["C42_shape", "C42_variants", "C42_rows", "C42_columns", "C42_halves", "C42_centroid", "C42_two", "C42_one", "C42_flow", "C42_third_refuted", "C42_pattern_refuted", "C42_template_refuted", "C42_centroid_refuted"], "note": "Holds for two devices and even shapes. Refuted parts: a third device is dropped silently, a user pattern or template may change the number of units, and the common-centroid pattern is chosen for odd rows where it has no common centroid."},
{"property": "C43", "status": "proved", "theorems": ["C43_common_translation", "C43_corners", "C43_nonnegative", "C43_idempotent"], "note": "json_pos on the list of terminals and the bounding box."},
{"property": "C44", "status": "proved", "theorems": ["C44_roundtrip", "C44_layout_roundtrip", "C44_parser_total", "C44_size_refuted", "C44_body_metal_lost_refuted", "C44_bus_pin_refuted", "C44_truncation_refuted", "C44_multiport_refuted"], "note": "Character-level writer, tokenizer and parser. Refutations: SIZE wrong for boxes not at the origin, body pin metal dropped, bus-bit pin names, silent truncation, multiple PORT sections."},
{"property": "C45", "status": "proved", "theorems": ["C45_polygon", "C45_every_element", "C45_complete"], "note": "Coordinates are integers (float rounding in scale not modelled)."},
{"property": "C46", "status": "proved", "theorems": ["C46_once", "C46_enclosed", "C46_complete", "C46_rect", "C46_row_spacing", "C46_column_spacing", "C46_matrix_keys", "C46_matrix_all", "C46_existing_refuted", "C46_existing_spacing_refuted", "C46_transposed_refuted", "C46_two_tracks_refuted"], "note": "drop_via over the model's matrix: no crossing gets two vias, vias join wires of one selected net inside both enclosures, and keep SpaceX on the row and SpaceY on neighbouring tracks against every via in the matrix. Findings: existing vias are entered under transposed keys, so a via is dropped on top of (or too close to) an existing one, or a legal one is suppressed; SpaceY is only checked on adjacent tracks."},
{"property": "C47", "status": "proved", "theorems": ["C47_wire_covers_vias", "C47_via_rects_inside", "C47_succeeds", "C47_wire_covers_centers", "C47_mixed_vias_refuted", "C47_nonmonotone_refuted"], "note": "Holds for vias with one common metal extension on increasing stop grids; refuted for mixed via kinds and for non-monotonic stop grids."},
{"property": "C48", "status": "proved", "theorems": ["C48_same_net", "C48_complete", "C48_between", "C48_covers", "C48_on_track", "C48_length", "C48_snap_refuted", "C48_off_track_refuted"], "note": "join_wires: new wires join consecutive wires of one selected net on one track, cover the gap and stay within the two outer ends when the wire is on the track. Findings: snapping of the ends can leave a gap, and off-track wires get a joining wire on another centre line."},
{"property": "C49", "status": "proved", "theorems": ["C49_formulae", "C49_abut_refuted", "C49_unspecific_refuted", "C49_halo_refuted", "C49_symmetry_refuted", "C49_boundary_units_refuted"], "note": "For the constraints listed in honoured; refutations: abut, undirected order, halo, symmetric pairs of different size, boundary units."},
{"property": "C50", "status": "proved", "theorems": ["C50_covers", "C50_lower_bound", "C50_priority"], "note": "Exact rationals; pin boxes as given."},
{"property": "C51", "status": "proved", "theorems": ["C51_pin_bbox", "C51_order_independent"], "note": "Integer coordinates."},
{"property": "C52", "status": "proved", "theorems": ["C52_exact", "C52_once", "C52_frame", "C52_clash_refuted"], "note": "Exact; one clash refuted."},
{"property": "C53", "status": "proved", "theorems": ["C53_check", "C53_accepts", "C53_inside", "C53_inside_enough", "C53_overlap_refuted", "C53_rounding_refuted", "C53_second_check_refuted", "C53_scaled"], "note": "Soundness and completeness relative to the solver (C53_check, C53_accepts), instances inside (C53_inside). Refuted: overlap is accepted because the pair loop iterates over an exhausted generator (C53_overlap_refuted); violations below the scale factor (C53_rounding_refuted); a second check on the same database (C53_second_check_refuted)."},
{"property": "C54", "status": "proved", "theorems": ["C54_list_kept", "C54_user_constraint_refuted", "C54_second_test_refuted", "C54_formula_stays_refuted", "C54_matches_interfere_refuted"], "note": "The list keeps its length and, without equal user constraints, its content (C54_list_kept). Refuted: an equal user constraint is removed (C54_user_constraint_refuted), a second test is refused (C54_second_test_refuted), tested formulae stay in the solver (C54_formula_stays_refuted), and matches interfere (C54_matches_interfere_refuted)."},
{"property": "C55", "status": "proved", "theorems": ["C55_tiles", "C55_mirror", "C55_inside", "C55_array", "C55_patterns", "C55_row", "C55_mirror_refuted", "C55_height_refuted"], "note": "C55_mirror_refuted: vertical mirroring uses bbox[1] and moves the cell unless the box starts at 0; C55_height_refuted: the row height is that of the last cell."},
{"property": "C56", "status": "proved", "theorems": ["C56_even", "C56_odd", "C56_odd_refuted", "C56_gate_refuted", "C56_range", "C56_shared"], "note": "Holds on even rows and, when tracks are shared by like terminals only, on odd rows. Finding (C56_odd_refuted, C56_gate_refuted): two devices in series get one track for two nets on odd rows."},
{"property": "C57", "status": "proved", "theorems": ["C57_flat", "C57_sequence", "C57_completes", "C57_child", "C57_canonical", "C57_shared_refuted", "C57_prefix_refuted"], "note": "Up to the names of instances and internal nets; no hash collision is a hypothesis (no_clash). Findings: the name ignores which nets leave the group (C57_shared_refuted); models that ask for another letter than M cannot be grouped (C57_prefix_refuted). Constraints and generators of the group are not modelled."},
{"property": "C58", "status": "proved", "theorems": ["C58_flat", "C58_copy", "C58_sequence", "C58_passed", "C58_completes", "C58_port_refuted", "C58_clash_refuted"], "note": "Occurrences are a specification (MatchSpec.occurrence); the matcher of networkx is not modelled. Hypotheses: no clash of names or hash collision (no_clash) and no inner net is a port (ports_kept). Findings: without ports_kept a port loses its connection (C58_port_refuted); a clash of instance names is not noticed (C58_clash_refuted). Constraints of the copy are not modelled here."},
{"property": "C59", "status": "proved", "theorems": ["C59_list", "C59_dropped", "C59_block", "C59_order", "C59_pair", "C59_pins", "C59_pin_net", "C59_flow", "C59_frame", "C59_kinds", "C59_child", "C59_images", "C59_child_flow", "C59_lost_refuted", "C59_caps_refuted", "C59_single_refuted", "C59_pairs_refuted", "C59_internal_refuted", "C59_rename_refuted"], "note": "Names are upper case, pins are split at the slash, currents are integers. Findings: a list without the first element of the map loses the group (C59_lost_refuted, C59_caps_refuted for groups of capacitors); an Order with one grouped member is rejected by the child (C59_single_refuted); disjoint pairs may overlap afterwards (C59_pairs_refuted); currents on inner nets go to pins that do not exist (C59_internal_refuted); renaming fails with a current (C59_rename_refuted)."},
{"property": "C60", "status": "proved", "theorems": ["C60_sound", "C60_terminates", "C60_fuel", "C60_branches", "C60_branches_inj", "C60_one_to_one_refuted", "C60_discard_refuted", "C60_assert_refuted"], "note": "Graph, node identifiers (create_node_id) and edge filters are parameters of the model. C60_one_to_one_refuted, C60_discard_refuted and C60_assert_refuted record defects: two instances can get the same partner, 'match_pair = {}' rebinds a local name only, and a second net with more than ten neighbours fails an assertion."},
{"property": "C61", "status": "proved", "theorems": ["C61_added", "C61_written", "C61_kept", "C61_runs", "C61_poison", "C61_poison_refuted", "C61_value_refuted"], "note": "Uses the constraint database of Model/ConstraintDB.v. C61_poison and C61_poison_refuted: a rejected constraint makes the solver refuse everything that follows. C61_value_refuted: the second node of a pair of nets is not looked for in the graph."},
{"property": "C62", "status": "proved", "theorems": ["C62_sound", "C62_once", "C62_complete", "C62_diode_refuted", "C62_parallel_refuted", "C62_twice_refuted"], "note": "Leaf pins of a connection (get_leaf_connection) are a parameter. C62_diode_refuted, C62_parallel_refuted and C62_twice_refuted record the limits found."},
{"property": "C63", "status": "proved", "theorems": ["C63_groups", "C63_rows", "C63_terminates", "C63_result", "C63_instance_refuted", "C63_rest_refuted", "C63_aligned_refuted", "C63_shared_refuted"], "note": "C63_groups, _rows, _result and _terminates hold for every graph and every iteration order. Findings: C63_instance_refuted (a start point that is an instance raises an exception), C63_rest_refuted (only the last class is used), C63_aligned_refuted (rows of different length; the aligned instance may be a deeper one), C63_shared_refuted."},
{"property": "C64", "status": "proved", "theorems": ["C64_new_name", "C64_flat", "C64_shape", "C64_completes", "C64_name_refuted", "C64_overlap_refuted", "C64_aligned_refuted"], "note": "C64_flat uses C33 for each move; its hypothesis tidy says that elements named X_ARRAY_... belong to existing array subcircuits. The Align and SameTemplate constraints added to the hierarchy (258-271) are not modelled."},
{"property": "C65", "status": "proved", "theorems": ["C65_partition", "C65_stops", "C65_no_stop", "C65_meaning", "C65_indented_comment_refuted", "C65_trailing_blank_refuted", "C65_trailing_star_refuted", "C65_product_refuted"], "note": "Text is ASCII. Python's regular expressions are modelled by backtracking matchers in continuation-passing style. The line forms leave out quoted expressions, backslash continuation and Windows line ends (all are in the model and in C65_partition/C65_stops)."},
{"property": "C66", "status": "proved", "theorems": ["C66_doc", "C66_text", "C66_one_each", "C66_header", "C66_top_param", "C66_default_model_refuted", "C66_no_ends_refuted", "C66_nested_refuted", "C66_same_name_refuted", "C66_merged_nets_refuted"], "note": "Statement-level specification in Spec/SpiceDocSpec.v, composed with the line-level one of C65. Float conversion (num) and set iteration order (ord) are arbitrary; constraint texts are not evaluated. C66_doc and C66_text allow at most one assignment in a header or .MODEL because the order of several depends on ord; C66_header covers any number up to order."},
{"property": "C67", "status": "proved", "theorems": ["C67_direction", "C67_align_in_order", "C67_vertical_refuted", "C67_floorplan", "C67_floorplan_expands", "C67_floorplan_adjacent", "C67_empty_region_refuted", "C67_expand", "C67_skipped", "C67_soft", "C67_floorplan_unprotected_refuted"], "note": "Boxes are integer rectangles as in C39. Equality of element parameters for SymmetricBlocks is an arbitrary predicate. An exception in the middle of an expansion counts as failure of the whole expansion."},
{"property": "C68", "status": "proved", "theorems": ["C68_flow", "C68_unbalanced", "C68_idle_refuted", "C68_net", "C68_nets", "C68_scaled", "C68_one_time_refuted", "C68_reversed_refuted"], "note": "Weights are modelled squared (no sqrt) over rationals. C68_idle_refuted, C68_one_time_refuted and C68_reversed_refuted are findings."},
{"property": "C69", "status": "proved", "theorems": ["C69_gds", "C69_txt", "C69_mag_lost", "C69_other_types_lost", "C69_path_text_refuted", "C69_bgnextn_refuted", "C69_lists_refuted"], "note": "Round trips proved for all well-formed documents; key order of JSON objects is the order in which the readers create keys. The python-gdsii library is trusted to store a record faithfully. Findings: C69_mag_lost, C69_other_types_lost, C69_path_text_refuted, C69_bgnextn_refuted, C69_lists_refuted."},
{"property": "C70", "status": "proved", "theorems": ["C70_pins", "C70_which", "C70_fails", "C70_idempotent", "C70_base_refuted"], "note": "Distances are given by the inductive relation near in Spec/ChannelSpec.v. When the two nets are equally far from a supply, the code's answer depends on the order of the walk; the theorem says nothing there. Python's set order is modelled as list order. C70_base_refuted: the base is followed one step only."},
{"property": "C71", "status": "proved", "theorems": ["C71_exact", "C71_fails", "C71_root", "C71_single_refuted", "C71_nosupply_refuted"], "note": "remove_dummy_devices as a function of library, supplies and netlist; the end of the base chain is the independent relation root. C71_single_refuted and C71_nosupply_refuted are findings about the code as it is."},
{"property": "C72", "status": "proved", "theorems": ["C72_behaviour", "C72_wrapper_refuted"], "note": "Behaviour is satisfaction of every device relation by a valuation of nets. Hypotheses: the devices are physical, the library's MOS models have a polarity, STACK parameters are positive integers. Multiplicity is not counted in the device relation (C31 treats parameter sums). The hypothesis on get_base_model excludes the wrapper circuits of C72_wrapper_refuted."},
{"property": "C73", "status": "proved", "theorems": ["C73_load", "C73_wires", "C73_spacing", "C73_enclosed", "C73_via_table", "C73_widthy_refuted", "C73_other_refuted", "C73_finfet_refuted", "C73_crossing_refuted", "C73_across_refuted", "C73_colored_list_refuted"], "note": "Model/DefaultCanvas.v models layer loading and the default canvas over the grid model of Model/Grid.v and Model/Canvas.v; C73_load is an iff, C73_wires gives the exact set of drawable rectangles. Five findings."},
{"property": "C74", "status": "proved", "theorems": ["C74_run", "C74_cuts", "C74_count", "C74_apart", "C74_inside", "C74_centred", "C74_color", "C74_agrees", "C74_offset_refuted"], "note": "Terminals as records with an abstract rest; processors as functions. C74_color gives the exact colour for every offset. One finding."},
{"property": "C75", "status": "proved", "theorems": ["C75_fingers", "C75_variants", "C75_legal", "C75_single", "C75_equal", "C75_centroid", "C75_centroid_refuted", "C75_ratio", "C75_ratio_exact_refuted", "C75_mirror_refuted", "C75_mixed_refuted", "C75_user_refuted", "C75_third_refuted", "C75_exact", "C75_exact_second_refuted", "C75_exact_sizes_refuted"], "note": "Findings: unequal devices get wrong sizes (a mirror 1:2 is drawn 2:1 or 1:1), equal fingers split differently cannot be drawn, user patterns are replaced for odd shapes, only the first exact pattern is ever drawn and its sizes are not checked, a third device is never drawn without an exact pattern."},
{"property": "C76", "status": "proved", "theorems": ["C76_lvs", "C76_body_refuted", "C76_body_track_refuted", "C76_shared_refuted", "C76_many_refuted"], "note": "Connection is the closure of touching wires and vias, defined independently in Spec/LvsSpec.v; layers below M1 are not modelled. Findings: different body nets, and different source nets under shared diffusion, are shorted; with more nets than tracks nothing above M1 is drawn."},
{"property": "C77", "status": "proved", "theorems": ["C77_plates", "C77_pins", "C77_size", "C77_thin_refuted"], "note": "Wires are boxes, a via joins the boxes of two neighbouring layers covering its centre; float division is exact; design rules are not modelled."},
{"property": "C78", "status": "proved", "theorems": ["C78_connected", "C78_series", "C78_path", "C78_ends", "C78_value", "C78_length", "C78_length_refuted", "C78_array_refuted"], "note": "Same geometry as C77. The main theorems are for one cell, the only case the flow generates; C78_array_refuted covers every array with at least two columns and two fingers."},
{"property": "C79", "status": "proved", "theorems": ["C79_total", "C79_pins", "C79_nets", "C79_index", "C79_index_refuted", "C79_port", "C79_port_refuted"], "note": "PnRDB objects are records of indices; terminals and nets as lists. C79_index_refuted and C79_port_refuted are the two limits found."},
{"property": "C80", "status": "proved", "theorems": ["C80_leaves", "C80_covered", "C80_shared_refuted", "C80_same_name_refuted", "C80_collateral", "C80_map_refuted"], "note": "Proved with its proviso; C80_shared_refuted, C80_same_name_refuted and C80_map_refuted show the code drops or keeps cells it should not."},
{"property": "C81", "status": "proved", "theorems": ["C81_exact", "C81_closed", "C81_ends", "C81_cycle", "C81_duplicate_refuted"], "note": "Python recursion as fuel; C81_ends and C81_cycle say when some fuel suffices. C81_duplicate_refuted for repeated names."},
{"property": "C82", "status": "proved", "theorems": ["C82_point", "C82_inverse", "C82_box", "C82_compose", "C82_path", "C82_terminal", "C82_terminal_inverse", "C82_terminal_refuted", "C82_guardring", "C82_guardring_refuted", "C82_checkin_own", "C82_checkin_upright", "C82_checkin_refuted"], "note": "C++ int as Z. C82_terminal_refuted, C82_guardring_refuted and C82_checkin_refuted are faults found; the positive theorems state the cases that are right."},
{"property": "C83", "status": "proved", "theorems": ["C83_succeeds", "C83_copies", "C83_results", "C83_results_refuted"], "note": "CheckoutHierNode, TransformNode of the blocks, RelOrt2AbsOrt and the whole walk are modelled; the routing of a node (route_single_variant) and CheckinChildnodetoBlock are taken to leave the fields of the walk alone. Assumes the placements' children exist and are not the top, and distinct cell names."},
{"property": "C84", "status": "proved", "theorems": ["C84_nodes", "C84_unfolds", "C84_succeeds"], "note": "The depth-first order, the collection of needed placements and the whole walk are modelled; the routing of a node and CheckinChildnodetoBlock are taken to leave the walk's fields alone. Simplified: the lower left corner is the cell's, not the placement's; the order of list(set(..)) of parents is unspecified."},
{"property": "C85", "status": "proved", "theorems": ["C85_defined", "C85_parents", "C85_child", "C85_top", "C85_nets", "C85_iter", "C85_power", "C85_symmetric", "C85_child_refuted", "C85_supply_symmetric_refuted", "C85_two_pairs_refuted", "C85_supply_refuted", "C85_local_refuted", "C85_twice_refuted"], "note": "The passes over the netlist as functions on its tree; the instances of a block share one list of pins, linear constraints are left out. Undefined reads in C++ are a missing result."},
{"property": "C86", "status": "proved", "theorems": ["C86_stem", "C86_defined", "C86_variants", "C86_errors", "C86_lost_refuted", "C86_report_refuted", "C86_cap_refuted", "C86_pin_refuted"], "note": "Machine integers are modelled (32 bit indices, 64 bit npos). The assertion on a missing LEF is taken as a failure; the geometry of a pin is any type."},
{"property": "C87", "status": "proved", "theorems": ["C87_layout", "C87_names", "C87_nets_through_levels", "C87_metal_through_levels", "C87_grid", "C87_missing_refuted", "C87_half_refuted", "C87_high_refuted", "C87_devices_refuted", "C87_count_refuted", "C87_supply_refuted"], "note": "Findings: a block whose layout file is missing is dropped without an entry in the error list (C87_missing_refuted); a route half a database unit off its grid line is not reported (C87_half_refuted); layers M7 and above are never checked (C87_high_refuted); device parameters are lost above the first routed level because the written dictionary has no 'subinsts' (C87_devices_refuted); wires of different widths are written to the error file but not counted (C87_count_refuted); unconnected nets of two blocks called like a supply become one net (C87_supply_refuted)."},
{"property": "C88", "status": "proved", "theorems": ["C88_plain", "C88_kept", "C88_covers", "C88_ordered", "C88_one_direction", "C88_sequences", "C88_left_out", "C88_best", "C88_enough", "C88_mixed_refuted", "C88_assert_refuted", "C88_iterations_refuted", "C88_cycle_refuted", "C88_overflow_refuted"], "note": "Findings: with constraints in both directions the number of positive sequences also bounds the negative ones, so an admissible pair may never be evaluated (C88_mixed_refuted); with constraints the feasibility check counts one sequence per candidate while the loop visits pairs, so at the default limits five blocks with two variants and one constraint run into assert(0) (C88_assert_refuted); an SA iteration limit below 10000 is not the one given to the enumerator, so two blocks with limit 1 run into assert(0) (C88_iterations_refuted); contradictory constraints are dropped silently (C88_cycle_refuted); the number of choices wraps modulo 2^64 (C88_overflow_refuted)."},
{"property": "C89", "status": "proved", "theorems": ["C89_groups", "C89_axis", "C89_separate", "C89_initial", "C89_moves", "C89_feasible", "C89_constraints", "C89_moved", "C89_exchanged", "C89_swapped", "C89_overlap_refuted", "C89_axis_refuted"], "note": "Proved without ordering and alignment constraints (KeepOrdering is not applied). Findings: constraints that share a block but no whole pair or self-symmetric block give two groups with a common block, and exchanging two such groups of unequal size loses a block and doubles another (C89_overlap_refuted); a constraint that meets a group in a pair only loses its own axis direction silently (C89_axis_refuted)."},
{"property": "C90", "status": "proved", "theorems": ["C90_sound", "C90_sort", "C90_plain", "C90_complete", "C90_once", "C90_fixup_refuted", "C90_lost_refuted", "C90_range_refuted"], "note": "C90_fixup_refuted: the corrected negative sequence is looked up right after it was inserted, so one correction always fails. C90_lost_refuted: success although a block is lost (cyclic edges). C90_range_refuted: with an alignment more blocks are written back than there are places. std::sort of equal keys is taken as stable; random_shuffle is any permutation."},
{"property": "C91", "status": "proved", "theorems": ["C91_align", "C91_symm", "C91_groups", "C91_feasible", "C91_nested", "C91_initial", "C91_nested_refuted", "C91_self_refuted", "C91_pairs_refuted", "C91_loop_refuted"], "note": "Findings: C91_nested and C91_initial (nested pairs of a horizontal axis are rejected, so the initial sequence pair of every design with two such pairs is), C91_nested_refuted (one with a placement is rejected), C91_self_refuted and C91_pairs_refuted (sequence pairs about a horizontal axis without any placement pass), C91_loop_refuted (crossing pairs are tested only if the design has an alignment, even of no block)."},
{"property": "C92", "status": "proved", "theorems": ["C92_sound", "C92_mirrored", "C92_in_line", "C92_inside", "C92_exact", "C92_checked", "C92_stack", "C92_stack_refuted", "C92_order_gap_refuted", "C92_axis_refuted", "C92_snap_refuted"], "note": "Findings: C92_stack and C92_stack_refuted (vertical ordering rows look for the abutment with the blocks swapped, so an ordered vertical abutment with any spacing is infeasible), C92_order_gap_refuted (they take the horizontal spacing), C92_axis_refuted (sizes are divided by four, so pairs of widths 2 and 4 get different axes in every solution), C92_snap_refuted (the snapping pass drops halo and box)."},
{"property": "C93", "status": "proved", "theorems": ["C93_on_grid", "C93_good", "C93_rounding_refuted", "C93_mirror_refuted", "C93_center", "C93_slack", "C93_right", "C93_right_refuted", "C93_hpwl", "C93_hpwl_empty", "C93_single", "C93_single_refuted"], "note": "Solver is an arbitrary function returning only solutions of the rows of C92. Weights of the cost, linear constraints and terminals are not modelled. Findings are stated as refutations or universal theorems (C93_center, C93_slack, C93_right, C93_hpwl_empty, C93_single)."},
{"property": "C94", "status": "proved", "theorems": ["C94_written", "C94_sane", "C94_kept", "C94_direction", "C94_added", "C94_between", "C94_between_refuted", "C94_variant_refuted", "C94_spread_refuted", "C94_stack", "C94_distance"], "note": "End to end from user constraint to checked placement: writer, reader, design constructor, integer program (C92) and the formulas of the python check. Findings: C94_direction, C94_between(_refuted), C94_variant_refuted, C94_spread_refuted, C94_stack; C94_written shows which directions and lines make the writer raise."},
{"property": "C95", "status": "proved", "theorems": ["C95_exists", "C95_keeps", "C95_reached", "C95_optimum", "C95_order_refuted", "C95_spread_refuted"], "note": "Both directions of the sequence-pair correspondence (C95_exists), the user's orders (C95_keeps), reachability in the integer program (C95_reached) and optimality of the exhaustive search over all well-placed floorplans (C95_optimum). Findings: C95_order_refuted, C95_spread_refuted."},
{"property": "C96", "status": "proved", "theorems": ["C96_transformed", "C96_defined", "C96_shared", "C96_collected", "C96_list_refuted", "C96_type_refuted", "C96_stale_refuted", "C96_float_refuted"], "note": "C96_transformed, C96_defined, C96_shared, C96_collected on a heap model with object identities. Findings: C96_list_refuted, C96_type_refuted, C96_stale_refuted, C96_float_refuted. Visitor methods on inner nodes (visit_<Class> of a subclass) are not modelled."},
{"property": "C97", "status": "proved", "theorems": ["C97_graph", "C97_layers", "C97_shortest", "C97_tree", "C97_found", "C97_trees", "C97_layers_refuted", "C97_steiner_refuted", "C97_last_refuted", "C97_forgets_refuted"], "note": "Model/GlobalGraph.v; distances are integers without overflow. C97_shortest (Dijkstra with the multimap), C97_tree, C97_found, C97_trees, C97_graph, C97_layers hold for every graph; four _refuted theorems are findings about the code."},
{"property": "C98", "status": "proved", "theorems": ["C98_grid", "C98_cover", "C98_pin", "C98_graph", "C98_layers", "C98_plate", "C98_metal_refuted", "C98_via_refuted", "C98_offset_refuted", "C98_odd_refuted", "C98_via"], "note": "Constructor, ConvertNetBlockPin, AdjustPlateEdgeCapacity and AdjustVerticalEdgeCapacity as written over integers. C98_metal_refuted, C98_via_refuted, C98_offset_refuted and C98_odd_refuted record four defects."},
{"property": "C99", "status": "proved", "theorems": ["C99_ends", "C99_path", "C99_lines", "C99_complete", "C99_top_refuted", "C99_complete_refuted", "C99_best_refuted", "C99_check_refuted", "C99_shield_refuted"], "note": "Single track (left = right = 0), as FindFeasiblePath_sym calls it; costs are rationals, infinite cost is None. The grid is any one that meets wf of Spec/AStarSpec.v. Findings: C99_top_refuted, C99_complete_refuted, C99_best_refuted, C99_check_refuted, C99_shield_refuted."},
{"property": "C100", "status": "proved", "theorems": ["C100_tracks", "C100_nodes", "C100_cover", "C100_single", "C100_joined", "C100_wires", "C100_vias", "C100_lists", "C100_route", "C100_twice_refuted", "C100_negative_refuted"], "note": "The constructor and the three point-list functions as written over integers; the tile grid is given by functions, and Full_Connected_Vertex (a second copy of the nodes, which the signal search does not read) is left out. C100_route composes with C99_path. Findings: C100_twice_refuted, C100_negative_refuted."},
{"property": "C101", "status": "proved", "theorems": ["C101_nodes", "C101_clear", "C101_rect", "C101_extend", "C101_vias", "C101_joined", "C101_zero_refuted", "C101_offset_refuted", "C101_thin_refuted", "C101_copy_refuted", "C101_odd_refuted", "C101_escape_refuted", "C101_refresh_refuted"], "note": "C101_clear is end to end: obstacles, grid (C100), path search (C99), extension, rectangle. It asks that the extended line stays between crossings of its track (C101_escape_refuted shows that the search does not ensure it), for no offsets, for single nodes and for broad obstacles (each refuted without). Seven findings: C101_zero, _offset, _thin, _copy, _odd, _escape, _refresh. The boxes of vias and the nodes taken out around pins (AddViaEnclosure, AddViaSpacing) are not modelled."},
{"property": "C102", "status": "proved", "theorems": ["C102_frame", "C102_closed", "C102_gaps", "C102_space", "C102_box", "C102_store", "C102_grid_refuted", "C102_side_refuted", "C102_box_refuted", "C102_pins_refuted", "C102_axis_refuted"], "note": "Model/GuardRing.v is Pcell_info, DRC_Read, the constructor, storegrhierNode and movehierNode of GuardRing.cpp, per direction. C102_frame, C102_closed, C102_gaps, C102_space, C102_box and C102_store hold for all cells with metal of positive size, node sizes and grids. Findings: C102_grid_refuted, C102_side_refuted, C102_box_refuted, C102_pins_refuted, C102_axis_refuted."},
{"property": "C103", "status": "proved", "theorems": ["C103_caps", "C103_room", "C103_counts", "C103_even", "C103_odd", "C103_near", "C103_spare", "C103_middle", "C103_grids", "C103_square_refuted", "C103_twice_refuted", "C103_user_refuted"], "note": "placement only (cells, pairs, nets, grids tried); routing of capacitors is not modelled; distances are compared by their squares"},
{"property": "C104", "status": "proved", "theorems": ["C104_sets", "C104_placed", "C104_reached", "C104_symmetric", "C104_positive", "C104_routed", "C104_enough", "C104_one", "C104_tracks", "C104_wires", "C104_stuck_refuted", "C104_symmetric_refuted", "C104_empty_refuted"], "note": "sets, choice of lines and x of the vertical wires; the shapes of the wires, the horizontal wires, boxes and files are not modelled. Findings: C104_stuck_refuted, C104_symmetric_refuted, C104_empty_refuted."},
{"property": "C105", "status": "proved", "theorems": ["C105_nodes", "C105_laws", "C105_unique", "C105_symmetric", "C105_fits", "C105_exact", "C105_built", "C105_loads", "C105_unequal_refuted", "C105_place_refuted", "C105_parallel_refuted", "C105_point_refuted", "C105_points"], "note": "numbers are exact rationals instead of double; the solver (SuperLU), the extraction of wires and vias and the nearest points of loads are not modelled. Findings: C105_unequal_refuted, C105_parallel_refuted, C105_place_refuted, C105_point_refuted."},
{"property": "C106", "status": "proved", "theorems": ["C106_rect", "C106_intersect", "C106_overlaps", "C106_contains", "C106_box", "C106_dist", "C106_transform", "C106_snap", "C106_snap_refuted", "C106_merge", "C106_boxes", "C106_redundant_refuted"], "note": "Model/HananGeom.v. Findings: C106_snap_refuted (the remainder of a negative coordinate has the wrong sign), C106_redundant_refuted. Coordinates do not overflow; the R-tree is not modelled."},
{"property": "C107", "status": "proved", "theorems": ["C107_dist", "C107_tree", "C107_first", "C107_single", "C107_stuck_refuted", "C107_clock", "C107_clock_refuted"], "note": "Model/HananNet.v. Distances are exact. Findings: C107_single, C107_stuck_refuted, C107_clock_refuted."},
{"property": "C108", "status": "proved", "theorems": ["C108_insert", "C108_free", "C108_complete", "C108_grid", "C108_top_refuted", "C108_outside_refuted"], "note": "Model/HananGrid.v. Findings: C108_top_refuted (the box is widened by one at its lower end only), C108_outside_refuted."},
{"property": "C109", "status": "proved", "theorems": ["C109_range", "C109_clear", "C109_target", "C109_stays", "C109_off_refuted"], "note": "Model/HananStep.v. Finding: C109_off_refuted. Vias, costs and the queue of the search are not modelled."},
{"property": "C110", "status": "proved", "theorems": ["C110_sound", "C110_roundtrip", "C110_shift", "C110_width_refuted"], "note": "Model/PyRoute.v, over Model/Grid.v and Model/Canvas.v. Finding: C110_width_refuted."},
{"property": "C111", "status": "proved", "theorems": ["C111_lines", "C111_spaces", "C111_defined", "C111_stops", "C111_offset_refuted", "C111_period_refuted", "C111_colors_refuted"], "note": "Model/MetalTemplate.v, over Model/Grid.v and Model/Canvas.v. Findings: C111_offset_refuted, C111_period_refuted, C111_colors_refuted."},
{"property": "C112", "status": "proved", "theorems": ["C112_order", "C112_larger", "C112_defined", "C112_generator", "C112_tie_refuted", "C112_empty_refuted", "C112_missing_refuted"], "note": "Model/OrderLib.v. Findings: C112_tie_refuted, C112_empty_refuted, C112_missing_refuted."},
{"property": "C113", "status": "proved", "theorems": ["C113_valid", "C113_written", "C113_symmetric", "C113_order", "C113_defined", "C113_alone_refuted", "C113_name_refuted", "C113_between_refuted"], "note": "Model/AdrLayers.v. Findings: C113_alone_refuted, C113_name_refuted, C113_between_refuted."}
]}
