{
 "claims": [
  {
   "property": "C01",
   "status": "proved",
   "theorems": [
    "C01_array_csg_is_boolean_combination"
   ],
   "note": "every argsort tie order, ties and infinities included"
  },
  {
   "property": "C02",
   "status": "proved",
   "theorems": [
    "C02_array_csg_output_is_well_formed",
    "C02_array_csg_unknown_operation_raises"
   ],
   "note": ""
  },
  {
   "property": "C03",
   "status": "proved",
   "theorems": [
    "C03_csg_rows_come_from_the_children",
    "C03_every_hit_names_the_surface_hit"
   ],
   "note": ""
  },
  {
   "property": "C04",
   "status": "partial",
   "theorems": [
    "C04_csg_hits_delimit_the_solid_partial",
    "C05_disjoint_union_refuted",
    "C06_touching_boxes_refuted"
   ],
   "note": "trees of any depth whose union parts overlap along every axis and whose intersection parts do not merely touch; for the other positions the code violates the property (refutations)"
  },
  {
   "property": "C05",
   "status": "partial",
   "theorems": [
    "C05_union_reports_every_part_partial",
    "C05_disjoint_union_refuted",
    "C102_the_box_of_a_union",
    "C102_a_union_shows_both_parts_or_nothing"
   ],
   "note": "holds for parts whose boxes overlap along every axis; false for separate parts, for which the C102 theorems say exactly which rays see them"
  },
  {
   "property": "C06",
   "status": "partial",
   "theorems": [
    "C06_box_culling_drops_nothing_partial",
    "C06_stored_boxes_contain_the_solid",
    "C06_touching_boxes_refuted"
   ],
   "note": "holds for every DIFFERENCE and for every INTERSECT except a ray running inside a face that the two boxes share; there the code violates it"
  },
  {
   "property": "C07",
   "status": "proved",
   "theorems": [
    "C07_sphere_hits_exact",
    "C07_C11_hits_lie_on_the_surface"
   ],
   "note": ""
  },
  {
   "property": "C08",
   "status": "proved",
   "theorems": [
    "C08_cube_hits_exact"
   ],
   "note": ""
  },
  {
   "property": "C09",
   "status": "partial",
   "theorems": [
    "C09_cylinder_hits_exact_partial",
    "C09_cylinder_hits_exact_refuted",
    "C103_cylinder"
   ],
   "note": "C103_cylinder says what every ray gets; exact outside numpy's isclose band (0 < dx^2+dy^2 <= 1e-8 or 0 < |dz| <= 1e-8); the code violates the property inside the band, proved by the refutation"
  },
  {
   "property": "C10",
   "status": "proved",
   "theorems": [
    "C10_paraboloid_hits_exact",
    "C10_paraboloid_rejects_nonpositive"
   ],
   "note": ""
  },
  {
   "property": "C11",
   "status": "proved",
   "theorems": [
    "C11_plane_hits_exact"
   ],
   "note": ""
  },
  {
   "property": "C12",
   "status": "partial",
   "theorems": [
    "C12_dead_rays_hit_nothing_partial",
    "C12_dead_ray_in_paraboloid_refuted",
    "C12_dead_rays_in_paraboloids_partial"
   ],
   "note": "all trees except a bare paraboloid, for which the code violates the property"
  },
  {
   "property": "C13",
   "status": "proved",
   "theorems": [
    "C13_every_ray_as_if_alone",
    "C13_primitives_ray_by_ray",
    "C13_shapes_ray_by_ray",
    "C13_propagate_ray_by_ray",
    "C13_normals_ray_by_ray",
    "C13_reflect_ray_by_ray",
    "C13_refract_ray_by_ray",
    "C13_materials_ray_by_ray"
   ],
   "note": "The array code (hstack, sort, reshape, masks, fancy indexing) is followed literally in Batch.v, BatchOps.v and BatchTracer.v; any argsort."
  },
  {
   "property": "C14",
   "status": "proved",
   "theorems": [
    "C14_world_hits_delimit_the_placed_solid",
    "C14_world_hits_lie_on_the_placed_surface",
    "C14_hit_parameter_is_the_distance"
   ],
   "note": ""
  },
  {
   "property": "C15",
   "status": "proved",
   "theorems": [
    "C15_world_normals_are_unit_and_perpendicular",
    "C15_inverted_normals_are_the_negatives",
    "C15_world_normals_point_outward"
   ],
   "note": ""
  },
  {
   "property": "C16",
   "status": "partial",
   "theorems": [
    "C16_primitive_normals_are_outward_partial",
    "C16_normals_part_inside_from_outside",
    "C16_thin_cuboid_refuted",
    "C16_normals_exactly",
    "C16_normals_are_given_exactly"
   ],
   "note": "exact at every surface point, edges and corners included (C16_normals_exactly); all primitives away from edges; a cuboid thinner than numpy's isclose tolerance at its distance from the origin gets a wrong normal"
  },
  {
   "property": "C17",
   "status": "partial",
   "theorems": [
    "C17_csg_normals_partial",
    "C17_a_leaf_is_inverted_when_subtracted_at_all",
    "C17_nested_difference_refuted"
   ],
   "note": "true when no leaf is subtracted twice; a - (b - c) inverts c although it is subtracted twice"
  },
  {
   "property": "C18",
   "status": "proved",
   "theorems": [
    "C18_bounding_volume_after_any_history",
    "C18_surface_box_contains_the_placed_solid",
    "C18_surface_box_is_touched_by_corners"
   ],
   "note": ""
  },
  {
   "property": "C19",
   "status": "partial",
   "theorems": [
    "C19_moving_keeps_boxes_current_partial",
    "C19_fresh_boxes_are_current",
    "C19_right_nested_union_refuted",
    "C19_boxes_after_a_move_exactly"
   ],
   "note": "every box after a move is stated exactly; current when no union/intersection has a CSG object as right operand; otherwise the root box goes stale"
  },
  {
   "property": "C20",
   "status": "partial",
   "theorems": [
    "C20_moving_an_operand_updates_the_box_partial",
    "C20_moving_a_grandchild_refuted",
    "C20_moving_an_operand_exactly",
    "C20_moving_deeper_parts_changes_nothing",
    "C20_other_boxes_stay"
   ],
   "note": "only the direct parent of a moved surface is updated; which boxes change and to what is stated exactly"
  },
  {
   "property": "C21",
   "status": "proved",
   "theorems": [
    "C21_object_coordinates_stay_consistent"
   ],
   "note": ""
  },
  {
   "property": "C22",
   "status": "proved",
   "theorems": [
    "C22_histories_compose",
    "C22_moves_add_up_and_commute",
    "C22_move_shifts_points",
    "C22_rotations_about_one_axis_add",
    "C22_rotations_are_undone_by_the_opposite_angle",
    "C22_quarter_turns_follow_the_right_hand_rule",
    "C22_moves_and_rotations_preserve_distances",
    "C22_scale_multiplies_coordinates"
   ],
   "note": ""
  },
  {
   "property": "C23",
   "status": "partial",
   "theorems": [
    "C23_rejected_arguments_change_nothing_partial",
    "C23_which_arguments_are_rejected",
    "C23_singular_scale_refuted",
    "C23_which_movements_succeed",
    "C23_what_a_failed_movement_leaves",
    "C23_movements_without_inverse_fail"
   ],
   "note": "which movements succeed and what a failed one leaves behind is stated exactly; true for rejected arguments; false when the new transform is singular (scale(0,1,1))"
  },
  {
   "property": "C24",
   "status": "proved",
   "theorems": [
    "C24_transform_reaches_every_part_once_per_listing",
    "C24_group_of_simple_members"
   ],
   "note": ""
  },
  {
   "property": "C25",
   "status": "partial",
   "theorems": [
    "C25_csg_tree_moves_every_node_once",
    "C25_shared_operand_refuted",
    "C24_transform_reaches_every_part_once_per_listing"
   ],
   "note": "the effect with shared operands is stated exactly; proved for all trees (no object occurs twice); false when an operand is shared"
  },
  {
   "property": "C26",
   "status": "partial",
   "theorems": [
    "C26_pinned_objects_are_restored_partial",
    "C26_parts_are_restored_after_whole_moves_partial",
    "C26_child_before_parent_refuted",
    "C26_one_pinned_object_exactly",
    "C26_part_moved_alone_refuted"
   ],
   "note": "for one pinned object the effect of leaving the context is stated exactly (a part is restored if and only if it kept its place relative to the whole); false when a part is pinned before the object it belongs to, and for parts moved on their own inside the context"
  },
  {
   "property": "C27",
   "status": "proved",
   "theorems": [
    "C27_ids_are_unique",
    "C27_an_id_never_changes"
   ],
   "note": ""
  },
  {
   "property": "C28",
   "status": "proved",
   "theorems": [
    "C28_reflect_obeys_the_law_of_reflection",
    "C28_all_call_shapes_agree"
   ],
   "note": ""
  },
  {
   "property": "C29",
   "status": "proved",
   "theorems": [
    "C29_refract_obeys_snell"
   ],
   "note": ""
  },
  {
   "property": "C30",
   "status": "proved",
   "theorems": [
    "C30_total_internal_reflection",
    "C30_reflection_only_when_total"
   ],
   "note": ""
  },
  {
   "property": "C31",
   "status": "proved",
   "theorems": [
    "C31_refraction_is_reversible"
   ],
   "note": ""
  },
  {
   "property": "C32",
   "status": "partial",
   "theorems": [
    "C32_quadratic_roots_partial",
    "C32_linear_root_partial",
    "C32_constant_partial",
    "C32_tiny_leading_coefficient_refuted",
    "C32_small_leading_coefficients_partial"
   ],
   "note": "exact outside numpy's isclose band; inside it (0 < |a| <= 1e-8) the code returns non-roots"
  },
  {
   "property": "C33",
   "status": "partial",
   "theorems": [
    "C33_smallest_root_partial",
    "C33_negative_leading_coefficient_refuted",
    "C33_all_quadratics_partial",
    "C33_linear_equations_refuted"
   ],
   "note": "false exactly for a < 0 with roots of opposite sign (C33_all_quadratics_partial) and for linear equations, which always get 0"
  },
  {
   "property": "C34",
   "status": "partial",
   "theorems": [
    "C34_trace_terminates_partial",
    "C34_proper_scenes_trace_to_the_end",
    "C34_programs_reach_proper_scenes",
    "C34_limit_not_positive_refuted",
    "C34_limits_of_zero_or_less_exactly"
   ],
   "note": "C34_limits_of_zero_or_less_exactly says what the other limits do; for generation limits of at least 1; false for limits of 0 or less, see the refutation"
  },
  {
   "property": "C35",
   "status": "partial",
   "theorems": [
    "C35_well_formed_histories_partial",
    "C35_limit_zero_refuted",
    "C34_limits_of_zero_or_less_exactly"
   ],
   "note": "C34_limits_of_zero_or_less_exactly says what the other limits do; for generation limits of at least 1; false for a limit of 0, see the refutation"
  },
  {
   "property": "C36",
   "status": "partial",
   "theorems": [
    "C36_segments_connected_and_straight_partial",
    "C36_shared_surface_refuted",
    "C41_every_trace_exactly"
   ],
   "note": "C41_every_trace_exactly says what happens in every scene; for proper scenes (reached by programs, C34_programs_reach_proper_scenes); false when a surface is listed twice, see the refutation"
  },
  {
   "property": "C37",
   "status": "proved",
   "theorems": [
    "C37_rows_name_the_first_surface",
    "C37_no_row_without_a_hit"
   ],
   "note": ""
  },
  {
   "property": "C38",
   "status": "proved",
   "theorems": [
    "C38_nearest_distance_independent_of_order",
    "C38_surface_independent_of_order",
    "C38_frame_independent_of_order"
   ],
   "note": ""
  },
  {
   "property": "C39",
   "status": "partial",
   "theorems": [
    "C39_intensity_has_no_influence",
    "C39_intensity_threshold_refuted"
   ],
   "note": "the claim is false of the code: the threshold mask is passed as the out argument of numpy.logical_or; proved instead that intensity has no influence on a trace"
  },
  {
   "property": "C40",
   "status": "partial",
   "theorems": [
    "C40_load_known_components_partial",
    "C40_load_components_refuted",
    "C40_unknown_surfaces_exactly",
    "C41_every_trace_exactly"
   ],
   "note": "C41_every_trace_exactly says what a tracer does with any loaded components; for new components whose surfaces the tracer was built with; false otherwise, see the refutation"
  },
  {
   "property": "C41",
   "status": "partial",
   "theorems": [
    "C41_each_hit_applied_once_partial",
    "C41_shared_surface_refuted",
    "C41_every_trace_exactly"
   ],
   "note": "C41_every_trace_exactly says how often each surface acts in every scene; for scenes in which no surface is listed twice; false otherwise, see the refutation"
  },
  {
   "property": "C42",
   "status": "proved",
   "theorems": [
    "C42_wavelength_and_intensity_carried"
   ],
   "note": ""
  },
  {
   "property": "C43",
   "status": "proved",
   "theorems": [
    "C43_tilts_are_unit",
    "C36_segments_connected_and_straight_partial"
   ],
   "note": "C43_tilts_are_unit holds in every scene; that the tilt is the direction of the segment is the leg clause of the C36 theorem"
  },
  {
   "property": "C44",
   "status": "proved",
   "theorems": [
    "C44_index_bookkeeping"
   ],
   "note": ""
  },
  {
   "property": "C45",
   "status": "proved",
   "theorems": [
    "C45_absorbed_rays_recorded_once"
   ],
   "note": ""
  },
  {
   "property": "C46",
   "status": "proved",
   "theorems": [
    "C46_trace_is_repeatable",
    "C46_repeated_trace_succeeds"
   ],
   "note": ""
  },
  {
   "property": "C47",
   "status": "partial",
   "theorems": [
    "C47_source_ids_partial",
    "C47_rays_per_source_changed_refuted",
    "C47_source_ids_exactly"
   ],
   "note": "C47_source_ids_exactly says which id every row gets, whatever the sources give and whatever was set; when rays_per_source is not changed between trace and calculate_source_ids; false otherwise, see the refutation"
  },
  {
   "property": "C48",
   "status": "partial",
   "theorems": [
    "C48_line_of_rays",
    "C48_circle_of_rays_partial",
    "C48_circle_rays_distinct_refuted",
    "C48_cone_of_rays_partial",
    "C48_single_cone_ray_refuted",
    "C48_wedge_of_rays",
    "C48_circle_rays_exactly",
    "C48_circle_of_one_ray",
    "C48_cone_rays_exactly",
    "C48_cone_of_one_ray_exactly"
   ],
   "note": "which rays coincide and where a single ray goes is stated exactly; lines and wedges in full; CircleOfRays emits its first ray twice and a single cone ray leaves along the axis, see the refutations"
  },
  {
   "property": "C49",
   "status": "proved",
   "theorems": [
    "C49_placed_sources_emit_placed_rays"
   ],
   "note": ""
  },
  {
   "property": "C50",
   "status": "proved",
   "theorems": [
    "C50_lamp_rays_within_lamp_and_cone"
   ],
   "note": ""
  },
  {
   "property": "C51",
   "status": "partial",
   "theorems": [
    "C51_static_lamp_repeats_partial",
    "C51_static_lamp_repeats_refuted",
    "C51_static_lamp_exactly",
    "C51_static_lamp_matches_its_place_partial",
    "C51_static_lamp_matches_its_place_refuted"
   ],
   "note": "C51_static_lamp_exactly says when a request is repeated and when it is made anew; repeats within a window of ten requests and while the lamp is not moved; false beyond, see the refutations"
  },
  {
   "property": "C52",
   "status": "partial",
   "theorems": [
    "C52_lenses_and_mirrors_span_their_aperture_partial",
    "C52_aperture_stop",
    "C52_baffle_is_turned_refuted"
   ],
   "note": "thick lenses, mirrors and aperture stops in full; a baffle is built with its two sizes swapped, see the refutation"
  },
  {
   "property": "C53",
   "status": "partial",
   "theorems": [
    "C53_thick_lens_is_the_solid_between_its_surfaces_partial",
    "C53_lens_thicker_than_its_sphere_refuted",
    "C53_thick_lens_exactly",
    "C53_as_asked_exactly_when"
   ],
   "note": "for lenses whose convex sides are used only up to the far side of their own sphere; false beyond, see the refutation. C53_thick_lens_exactly gives the solid for every lens, C53_as_asked_exactly_when says for which lenses it is the one asked for"
  },
  {
   "property": "C54",
   "status": "partial",
   "theorems": [
    "C54_biconvex_with_equal_radii_partial",
    "C54_plano_convex",
    "C54_different_radii_refuted",
    "C54_negative_radii_refuted",
    "C54_biconvex_exactly",
    "C54_thickness_exactly",
    "C54_as_asked_exactly_when"
   ],
   "note": "equal positive radii and plano-convex lenses; false for different and for negative radii, see the refutations. C54_biconvex_exactly gives the solid for all radii, C54_thickness_exactly and C54_as_asked_exactly_when say for which it has the thickness and the radii asked for"
  },
  {
   "property": "C55",
   "status": "partial",
   "theorems": [
    "C55_disks_and_rectangles_partial",
    "C55_ellipses_and_round_baffles_refuted"
   ],
   "note": "disks, rectangles and the TypeErrors; documented ellipses and round baffles raise TypeError"
  },
  {
   "property": "C56",
   "status": "partial",
   "theorems": [
    "C56_thin_round_mirror_partial",
    "C56_thick_mirror_partial",
    "C56_thin_rectangle_refuted"
   ],
   "note": "true for round apertures and for every mirror with a thickness; false for a rectangular aperture, which is never hit: the cube test needs a strict interval"
  },
  {
   "property": "C57",
   "status": "proved",
   "theorems": [
    "C57_parallel_rays_meet_in_the_origin",
    "C57_rays_from_the_origin_leave_parallel"
   ],
   "note": "for mirrors larger than the isclose bands"
  },
  {
   "property": "C58",
   "status": "partial",
   "theorems": [
    "C58_aperture_minus_sphere",
    "C58_rays_through_the_centre_return",
    "C58_infinite_radius_refuted"
   ],
   "note": "both halves hold for every finite radius; the documented infinite radius does not give a mirror"
  },
  {
   "property": "C59",
   "status": "proved",
   "theorems": [
    "C59_prism"
   ],
   "note": ""
  },
  {
   "property": "C60",
   "status": "proved",
   "theorems": [
    "C60_plate_keeps_the_direction"
   ],
   "note": ""
  },
  {
   "property": "C61",
   "status": "partial",
   "theorems": [
    "C61_colours_are_total_bounded_and_continuous_partial",
    "C61_colours_tell_visible_wavelengths_apart",
    "C61_single_wavelength_refuted"
   ],
   "note": "proved for arrays of any length; a single number raises IndexError"
  },
  {
   "property": "C62",
   "status": "proved",
   "theorems": [
    "C62_focal_length_of_the_thick_lens",
    "C62_turned_lens",
    "C62_plano_lens"
   ],
   "note": ""
  },
  {
   "property": "C63",
   "status": "proved",
   "theorems": [
    "C63_sellmeier_equation",
    "C63_catalogue_index_above_one",
    "C63_catalogue_normal_dispersion",
    "C63_catalogue_abbe_number",
    "C63_catalogue_values",
    "C63_constant_index",
    "C63_catalogue_glasses_can_be_traced"
   ],
   "note": ""
  },
  {
   "property": "C64",
   "status": "proved",
   "theorems": [
    "C64_camera_rays_cover_the_view",
    "C64_corners_of_the_view"
   ],
   "note": "Any invertible placement, any non-negative aspect ratio; int() of the exact product."
  },
  {
   "property": "C65",
   "status": "partial",
   "theorems": [
    "C65_nearest_surface_ahead_partial",
    "C65_behind_the_camera_refuted",
    "C65_every_pixel_exactly",
    "C65_what_is_put_forward",
    "C65_right_exactly_when"
   ],
   "note": "C65_every_pixel_exactly says what every pixel shows, C65_right_exactly_when for which pixels that is right. The property is false: the renderers read the nearest hit from the unfiltered hits, so an object behind the camera is drawn and hides objects in front. Proved for every pixel where no component's only hits lie behind the camera."
  },
  {
   "property": "C66",
   "status": "partial",
   "theorems": [
    "C66_pixels_stay_in_range_partial",
    "C66_array_of_lights_refuted"
   ],
   "note": "Proved for a light given as a point (the only form the renderers use). Refuted for lights given as an array."
  },
  {
   "property": "C67",
   "status": "proved",
   "theorems": [
    "C67_disk",
    "C67_disk_radius",
    "C67_rectangle",
    "C67_overlap",
    "C67_overlap_of_nothing_raises"
   ],
   "note": "overlap is modelled for one dimensional arrays; for others the code returns None."
  },
  {
   "property": "C68",
   "status": "proved",
   "theorems": [
    "C68_new_set",
    "C68_setting_one_field",
    "C68_wrong_length_is_refused"
   ],
   "note": "The 13 x n array and its views."
  },
  {
   "property": "C69",
   "status": "proved",
   "theorems": [
    "C69_movement_calls_return_without_cyclic_groups",
    "C69_self_containing_group_refuted"
   ],
   "note": ""
  },
  {
   "property": "C70",
   "status": "proved",
   "theorems": [
    "C70_moves_and_rotations_never_raise"
   ],
   "note": ""
  },
  {
   "property": "C71",
   "status": "partial",
   "theorems": [
    "C71_a_built_and_moved_solid_is_seen_where_it_is_partial",
    "C83_moving_a_union_refuted",
    "C102_hits_delimit_what_is_shown"
   ],
   "note": "false for a moved union nested on the right (C83_moving_a_union_refuted); C102 describes what every tree shows; proved for trees covered by C19, placements with boxes_fit and rays outside the isclose bands"
  },
  {
   "property": "C72",
   "status": "proved",
   "theorems": [
    "C72_rays_are_independent"
   ],
   "note": ""
  },
  {
   "property": "C73",
   "status": "proved",
   "theorems": [
    "C73_rows_in_order"
   ],
   "note": ""
  },
  {
   "property": "C74",
   "status": "proved",
   "theorems": [
    "C74_interactions_obey_the_optical_laws"
   ],
   "note": ""
  },
  {
   "property": "C75",
   "status": "proved",
   "theorems": [
    "C75_lamp_directions_follow_solid_angle"
   ],
   "note": ""
  },
  {
   "property": "C76",
   "status": "partial",
   "theorems": [
    "C76_documented_placement_refuted"
   ],
   "note": "the documentation is wrong: the mirror is centred on x = 0 and the triangular faces are parallel to XZ; where the code puts them is C55 and C59"
  },
  {
   "property": "C77",
   "status": "proved",
   "theorems": [
    "C77_edge_image_marks_the_outlines"
   ],
   "note": ""
  },
  {
   "property": "C78",
   "status": "partial",
   "theorems": [
    "C78_xy_view_from_above_partial",
    "C78_C79_parts_bound_the_hits",
    "C78_scene_below_zero_refuted"
   ],
   "note": "Proved when the scene's largest z is positive and bounds what the shapes answer; refuted for a scene below z = 0."
  },
  {
   "property": "C79",
   "status": "partial",
   "theorems": [
    "C79_xz_view_from_the_front_partial",
    "C78_C79_parts_bound_the_hits",
    "C79_scene_before_zero_refuted"
   ],
   "note": "Proved when the scene's largest y is positive (the camera then looks away from the scene and the unfiltered hits of C65 make it visible); refuted otherwise."
  },
  {
   "property": "C80",
   "status": "proved",
   "theorems": [
    "C80_shaded_pixels"
   ],
   "note": "Ids distinct as the library assigns them; nan is None."
  },
  {
   "property": "C81",
   "status": "proved",
   "theorems": [
    "C81_new_set_holds_default_rays",
    "C81_sources_write_rows",
    "C81_joined_sets",
    "C81_masked_rays"
   ],
   "note": ""
  },
  {
   "property": "C82",
   "status": "proved",
   "theorems": [
    "C82_array_tracer_is_the_ray_by_ray_tracer",
    "C82_array_sources_are_the_ray_by_ray_sources",
    "C82_frame_of_placed_sources"
   ],
   "note": "Runs that meet inf or nan in the ray by ray model carry no claim; C82_frame_of_placed_sources shows proper scenes never do."
  },
  {
   "property": "C83",
   "status": "partial",
   "theorems": [
    "C83_moving_the_bench_moves_the_rows",
    "C83_moved_sources_emit_moved_rays",
    "C83_moving_every_surface",
    "C83_translating_every_component_partial",
    "C83_moving_a_union_refuted"
   ],
   "note": "Proved in full for surfaces and any isometry. CSG nodes: any isometry that carries their stored boxes along; translations at program level. False when the right operand of a union is itself CSG: the stored box goes stale when the tree is moved."
  },
  {
   "property": "C84",
   "status": "proved",
   "theorems": [
    "C84_symmetric_scenes_give_symmetric_results",
    "C84_rays_of_the_plane_stay_in_it",
    "C84_axis_rays_stay_on_the_axis",
    "C84_lenses_are_symmetric",
    "C84_mirrors_are_symmetric"
   ],
   "note": "Rectangular apertures must be wider than 4e-8, below which numpy's isclose breaks the symmetry of a cuboid's normals."
  },
  {
   "property": "C85",
   "status": "proved",
   "theorems": [
    "C85_components_no_row_names_can_be_removed"
   ],
   "note": "Scenes are those of C72 (proper)."
  },
  {
   "property": "C86",
   "status": "proved",
   "theorems": [
    "C86_smaller_limits_cut_the_frame"
   ],
   "note": "Scenes are those of C72 (proper)."
  },
  {
   "property": "C87",
   "status": "proved",
   "theorems": [
    "C87_near_the_axis_the_lens_is_gaussian",
    "C87_parallel_rays_meet_at_the_focal_point",
    "C87_points_are_imaged"
   ],
   "note": "The lens stands where the factory leaves it; the screen is an absorbing plane across the axis more than 1e-6 behind the back face, which is the step the tracer takes after each hit."
  },
  {
   "property": "C88",
   "status": "proved",
   "theorems": [
    "C88_the_legs_are_drawn",
    "C88_nothing_drawn_without_a_trace",
    "C88_which_scenes_can_be_shown",
    "C88_no_components_cannot_be_shown",
    "C88_other_views_never_shown"
   ],
   "note": "matplotlib is modelled as the image with its extent and the list of arrows it is given; flat scenes (a zero side) are not followed"
  },
  {
   "property": "C89",
   "status": "partial",
   "theorems": [
    "C89_rays_by_wavelength",
    "C89_rays_by_source_partial",
    "C89_one_colour_otherwise",
    "C89_rays_per_source_changed_refuted",
    "C89_rays_by_source_exactly"
   ],
   "note": "C89_rays_by_source_exactly says which colour every leg gets, whatever was set since the trace; colours by source need that every source gives as many rays as asked and that the number has not been changed since the trace; the refutation changes it"
  },
  {
   "property": "C90",
   "status": "partial",
   "theorems": [
    "C90_the_picture_frames_the_scene_partial",
    "C90_disjoint_union_refuted"
   ],
   "note": "proved for components whose boxes contain them; a union of separate parts has too small a box (C05) and is cut off"
  },
  {
   "property": "C91",
   "status": "proved",
   "theorems": [
    "C91_renderers_draw_the_scene_as_it_stands"
   ],
   "note": "scene states reachable from the one in which the renderer was made; EdgeRender.get_results, which always raises AttributeError, is not modelled"
  },
  {
   "property": "C92",
   "status": "proved",
   "theorems": [
    "C92_parallel_rays_cross_near_the_focal_point"
   ],
   "note": "exact law, with the explicit spherical aberration; finite radius and positive thickness"
  },
  {
   "property": "C93",
   "status": "proved",
   "theorems": [
    "C93_trace_ends_whatever_the_rounding",
    "C93_rows_well_formed_whatever_the_rounding",
    "C93_smaller_limits_cut_whatever_the_rounding",
    "C93_intensity_has_no_influence_whatever_the_rounding",
    "C93_each_ray_as_if_alone",
    "C93_absorbed_rays_recorded_once",
    "C93_exact_arithmetic_is_a_case"
   ],
   "note": "a second model of the tracer with every numerical step left open; the exact tracer is shown to be an instance"
  },
  {
   "property": "C94",
   "status": "proved",
   "theorems": [
    "C94_normalised_vectors_are_unit",
    "C94_glass_forgets_the_length",
    "C94_directions_keep_unit_length",
    "C94_directions_keep_unit_length_in_binary64",
    "C94_live_rays_are_not_taken_for_absorbed",
    "C94_rays_end_only_where_they_should",
    "C94_binary64_rounds"
   ],
   "note": "rounding by any function with bounded relative and absolute error; overflow is not modelled; binary64 is Flocq's round to nearest even"
  },
  {
   "property": "C95",
   "status": "partial",
   "theorems": [
    "C95_first_hits_are_first_crossings_partial",
    "C95_rays_that_cross_nothing_are_dropped_partial",
    "C95_rows_end_at_the_first_crossing_partial",
    "C95_rays_end_in_the_open_partial",
    "C05_disjoint_union_refuted"
   ],
   "note": "for components covered by C04 (boxes right, rays outside the isclose bands) and rays that pass one surface at a time; false without the former, see C05 and C06"
  },
  {
   "property": "C96",
   "status": "proved",
   "theorems": [
    "C96_prism_refracts_twice",
    "C96_prism_deviation",
    "C96_prism_spreads_colours",
    "C96_spectrum_is_in_order",
    "C96_spectrum_on_a_screen"
   ],
   "note": "exact arithmetic; the rows concerned end on the faces off the isclose band of the base edge"
  },
  {
   "property": "C97",
   "status": "proved",
   "theorems": [
    "C97_rows_record_the_index_they_run_in",
    "C97_touching_glass_refuted"
   ],
   "note": "exact arithmetic; for glass that keeps apart and rays off edges, as the property says; the second theorem shows the touching case fails"
  },
  {
   "property": "C98",
   "status": "proved",
   "theorems": [
    "C98_rays_sent_back_retrace_their_path"
   ],
   "note": "exact arithmetic; benches and rays as in C97"
  },
  {
   "property": "C99",
   "status": "proved",
   "theorems": [
    "C99_hits_lie_on_spheres",
    "C99_distance_from_the_sphere",
    "C99_hits_lie_on_spheres_in_binary64",
    "C99_hits_lie_on_cylinders",
    "C99_hits_lie_on_paraboloids",
    "C99_axial_hits_lie_on_paraboloids",
    "C99_hits_lie_on_flat_faces"
   ],
   "note": "no overflow; before hits are sorted and clipped; the surface is the one the object's matrix defines exactly"
  },
  {
   "property": "C100",
   "status": "proved",
   "theorems": [
    "C100_two_hits_or_none",
    "C100_clear_crossings_of_spheres",
    "C100_sides_of_spheres",
    "C100_clear_crossings_of_cylinders",
    "C100_sides_of_cylinders",
    "C100_clear_crossings_of_paraboloids",
    "C100_sides_of_paraboloids"
   ],
   "note": "no overflow; the origin and direction are the computed ones seen from the object"
  },
  {
   "property": "C101",
   "status": "proved",
   "theorems": [
    "C101_parabolic_mirror",
    "C101_confocal_mirrors",
    "C101_spherical_mirror",
    "C101_plane_mirror"
   ],
   "note": "reflections at inner points of the reflecting face; thickness of plane mirrors at least 3e-8"
  },
  {
   "property": "C102",
   "status": "proved",
   "theorems": [
    "C102_hits_delimit_what_is_shown",
    "C102_the_box_of_a_union",
    "C102_a_union_shows_both_parts_or_nothing",
    "C102_nothing_is_invented",
    "C102_a_hole_can_be_lost"
   ],
   "note": "for surfaces with positive sizes and affine movements; C102_a_hole_can_be_lost shows why subtracted CSG objects are excepted"
  },
  {
   "property": "C103",
   "status": "proved",
   "theorems": [
    "C103_hits_for_every_ray",
    "C103_told_is_the_solid",
    "C103_cube",
    "C103_plane",
    "C103_cylinder",
    "C103_paraboloid",
    "C103_round_lenses_vanish",
    "C103_lenses_are_seen_refuted"
   ],
   "note": "for all rays that do not seem to stand still; a paraboloid met almost along its axis must not be left faster than it deepens"
  },
  {
   "property": "C104",
   "status": "partial",
   "theorems": [
    "C104_objects_that_never_scale_are_rotated_partial",
    "C104_the_quaternion_turns_directions_like_the_object_partial",
    "C104_orientation_and_quaternion_agree_partial",
    "C104_a_rotation_multiplies_quaternions_partial",
    "C104_quaternions_of_histories_partial",
    "C104_scaling_alone_is_no_rotation_partial",
    "C104_scaled_objects_refuted",
    "C104_evenly_scaled_objects_exactly",
    "C104_even_programs"
   ],
   "note": "objects that are not scaled; rotated and evenly scaled objects report a wrong rotation except for half turns: which one is given exactly, no claim for uneven scaling"
  },
  {
   "property": "C105",
   "status": "partial",
   "theorems": [
    "C105_results_are_snapshots",
    "C105_settings_last",
    "C105_settings_are_read_back",
    "C105_value_settings",
    "C105_lists_are_shared",
    "C105_tracing_lists",
    "C105_methods",
    "C105_iterators_are_used_up",
    "C105_any_iterable_refuted",
    "C105_loaded_iterators_serve_one_generation",
    "C105_iterators_of_sources_serve_one_trace"
   ],
   "note": "all of it for lists; for iterators the claim is false: the constructor uses up an iterator of components, load_components one generation later, a trace an iterator of sources"
  },
  {
   "property": "C106",
   "status": "proved",
   "theorems": [
    "C106_normals_point_along_the_exact_normal",
    "C106_mirrors_obey_the_law_of_reflection",
    "C106_glasses_obey_snells_law",
    "C106_every_interaction_is_lawful",
    "C106_binary64"
   ],
   "note": "No operation overflows; the index of the incoming side is at most four times the other."
  },
  {
   "property": "C107",
   "status": "proved",
   "theorems": [
    "C107_trains_of_lenses_are_gaussian",
    "C107_trains_of_lenses_form_images"
   ],
   "note": "A biconvex lens enters with the surfaces it really has (C110). The lenses stand free, 1e-6 apart at least (the offset of a refracted ray), no lens is tilted, and the generation limit is at least the number of media passed."
  },
  {
   "property": "C108",
   "status": "proved",
   "theorems": [
    "C108_strangers_do_not_interfere",
    "C108_solids_of_strangers_look_the_same",
    "C108_new_objects_leave_old_ones_alone"
   ],
   "note": ""
  },
  {
   "property": "C109",
   "status": "proved",
   "theorems": [
    "C109_boxes_after_a_movement",
    "C109_idle_movements_repair_the_boxes"
   ],
   "note": "Says exactly what C19 and C20 could only promise in part: where boxes are stale, and how to make them right."
  },
  {
   "property": "C110",
   "status": "partial",
   "theorems": [
    "C110_lenses_focus_as_documented_partial",
    "C110_mixed_train",
    "C110_unequal_radii_refuted"
   ],
   "note": "Proved for plano-convex lenses and for r1 = r2. For r1 < r2 the flat end of the aperture is the first surface, and for r1 > r2 the first vertex lies r1 - r2 too far in: the refuted theorem shows a lens whose focus is not the documented one. C107 says what such lenses do instead."
  },
  {
   "property": "C111",
   "status": "proved",
   "theorems": [
    "C111_which_surface_a_pixel_shows",
    "C111_same_as_a_traced_ray",
    "C111_behind_hides_ahead",
    "C111_xy_view",
    "C111_xz_view"
   ],
   "note": "Gives the exact behaviour behind the partial claims C65, C78 and C79. Hits are exact reals."
  },
  {
   "property": "C112",
   "status": "proved",
   "theorems": [
    "C112_off_a_sphere",
    "C112_off_a_cylinder",
    "C112_off_a_flat_face",
    "C112_off_a_sphere_in_binary64",
    "C112_off_a_flat_face_in_binary64",
    "C112_off_a_paraboloid",
    "C112_off_a_paraboloid_in_binary64",
    "C112_off_a_paraboloid_along_its_axis",
    "C112_offset_lost_far_away_refuted"
   ],
   "note": "The last theorem shows why the bound must grow with the coordinates."
  },
  {
   "property": "C113",
   "status": "partial",
   "theorems": [
    "C113_transforms_are_never_shared",
    "C113_nothing_is_shared_partial",
    "C113_positions_are_shared_refuted",
    "C113_a_movement_restores_the_place",
    "C113_what_is_held_stays"
   ],
   "note": "get_position and get_orientation return the object's own array: writing into it changes what the object reports, although the object does not move."
  },
  {
   "property": "C114",
   "status": "partial",
   "theorems": [
    "C114_cache_is_invisible_partial",
    "C114_indices_are_current",
    "C114_abbe_numbers_were_right_once",
    "C114_old_numbers_last",
    "C114_the_abbe_number",
    "C114_one_index_has_no_abbe_number",
    "C114_stale_abbe_number_refuted"
   ],
   "note": "abbe() is wrapped in lru_cache(100) keyed by the glass, and the coefficients are public attributes: a glass turned from BK7 into SF5 still reports 64."
  },
  {
   "property": "C115",
   "status": "proved",
   "theorems": [
    "C115_short_waves_converge_more",
    "C115_short_waves_diverge_more",
    "C115_colour_matters_only_through_the_index"
   ],
   "note": "The first two are limits: they hold for all rays within some distance of the axis."
  },
  {
   "property": "C116",
   "status": "proved",
   "theorems": [
    "C116_slopes_are_gaussian",
    "C116_rows_tell_the_focus",
    "C116_focus_does_not_depend_on_the_screen",
    "C116_measured_focus_is_the_lensmakers",
    "C116_light_from_the_focus_leaves_parallel",
    "C116_trains_collimate"
   ],
   "note": "The source of examples/convex_collimator.py stands the focal length before the middle of the lens, not before its front principal plane: the rays leave with 5/256 of their slope (C116_convex_collimator)."
  },
  {
   "property": "C117",
   "status": "proved",
   "theorems": [
    "C117_objects_drift_slowly",
    "C117_in_binary64",
    "C117_round_trips_return",
    "C117_a_move_rounds_once",
    "C117_moves_add_up",
    "C117_parts_stay_together",
    "C117_small_moves_are_lost_refuted"
   ],
   "note": "C117_small_moves_are_lost_refuted is the stated limit, not a gap: it shows why the bound is relative to the largest distance. The object transform (np.linalg.inv) is not modelled in rounding; scale and transform(matrix) are left out of the bound."
  },
  {
   "property": "C118",
   "status": "partial",
   "theorems": [
    "C118_what_is_refused",
    "C118_shapes_are_as_asked_partial",
    "C118_signs_and_orders_do_not_matter",
    "C118_heights_in_the_wrong_order_refuted",
    "C118_negative_sides_refuted",
    "C118_readers"
   ],
   "note": "A cylinder whose heights come in the wrong order is never met by rays perpendicular to its axis and has its cap normals turned; a plane with a negative side is never met by rays that do not move along that side. Both behaviours are given exactly."
  },
  {
   "property": "C119",
   "status": "proved",
   "theorems": [
    "C119_moved_spheres_are_met",
    "C119_moved_cylinders_are_met",
    "C119_moved_faces_are_met",
    "C119_in_binary64",
    "C119_moved_paraboloids_are_met",
    "C119_paraboloids_in_binary64"
   ],
   "note": "np.linalg.inv is numpy's: its accuracy is a hypothesis (a relative residual rho, last row exact), stated in SpecFlSeen.v; the examples use an exact inverse. For paraboloids (Props_MetBowl.v) the distance is measured along the axis, and rays nearly along the axis carry the quadratic term the code takes for 0."
  },
  {
   "property": "C120",
   "status": "proved",
   "theorems": [
    "C120_images_in_flat_mirrors",
    "C120_two_mirrors",
    "C120_corner_reflector",
    "C120_planes_are_flat"
   ],
   "note": "Whether a solid's side gives the plane's normal at a point is C16's matter (it does away from the edges)."
  },
  {
   "property": "C121",
   "status": "partial",
   "theorems": [
    "C121_faces_to_the_viewer_exactly",
    "C121_blocks_are_lit_partial",
    "C121_low_scene_refuted",
    "C121_deep_scene_refuted"
   ],
   "note": "Exact for every picture: the warm tone prevails if and only if the light, which draw puts at three times the largest z (xy view) or at minus three times the largest y (xz view), stands between viewer and point. So a scene below z = 0 is drawn in the shade from above, and so is the front of a scene that reaches further towards the viewer than three times its largest y; both are refutations of the full statement."
  },
  {
   "property": "C122",
   "status": "proved",
   "theorems": [
    "C122_skewness_is_kept",
    "C122_the_part_along_an_edge_is_kept",
    "C122_round_benches",
    "C122_symmetric_surfaces_are_round",
    "C122_lenses_are_round",
    "C122_lenses_keep_the_skewness"
   ],
   "note": "Exact arithmetic. A lens with a rectangular aperture has flat sides, which are not round; its faces are."
  },
  {
   "property": "C123",
   "status": "partial",
   "theorems": [
    "C123_baffles_absorb",
    "C123_stops_absorb_partial",
    "C123_openings_let_by",
    "C123_stops_do_nothing_else_partial",
    "C123_ties_refuted"
   ],
   "note": "For stops it is proved when np.argsort keeps equal numbers in their order. That is not what np.argsort promises by default, and with a sort that exchanges them the stop lets a ray by that it should absorb (C123_ties_refuted): the code relies on the insertion sort numpy uses for short arrays."
  },
  {
   "property": "C124",
   "status": "partial",
   "theorems": [
    "C124_plates_are_hit_where_they_are_left_partial",
    "C124_plates_let_by_where_they_are_cut_partial",
    "C124_left_or_cut",
    "C124_only_the_plate_is_hit_partial",
    "C124_openings_are_the_same_from_both_sides_refuted"
   ],
   "note": "Proved when np.argsort keeps equal numbers in their order; without that it is false already for one hole (C123_ties_refuted). Because only the stretch before the crossing counts, a pocket that starts flush with the plate opens it from one side only (C124_openings_are_the_same_from_both_sides_refuted)."
  },
  {
   "property": "C125",
   "status": "proved",
   "theorems": [
    "C125_absorbers_only_cut_histories_short",
    "C125_absorbers_add_no_other_rows"
   ],
   "note": "Stated of scenes in which the surfaces of one solid may be shared by no other component (distinct surface numbers), as the constructors make them. That both traces run to the end is a hypothesis; C34 says when they do."
  },
  {
   "property": "C126",
   "status": "proved",
   "theorems": [
    "C126_a_ball_turns_rays_twice",
    "C126_aplanatic_points"
   ],
   "note": "That the ray comes to the ball again (no other surface inside it) is a hypothesis on the rows. Over the reals; the tracer's restart offset is included: the rays start a little inside, which does not change their line."
  },
  {
   "property": "C127",
   "status": "proved",
   "theorems": [
    "C127_held_once_is_held_for_ever",
    "C127_rods_deliver_what_enters_at_an_end"
   ],
   "note": "The meetings with the side are those away from the rims (where the code takes the normal of a cap); that nothing else stands in the way is said by the rows naming the cylinder. Over the reals."
  },
  {
   "property": "C128",
   "status": "proved",
   "theorems": [
    "C128_rays_leave_a_block_as_they_entered_it",
    "C128_plates_shift_rays"
   ],
   "note": "The meetings are with faces away from the edges (at an edge the code's normal is a diagonal: C16). That nothing else stands in the block is said by the rows naming it. Over the reals. The block is turned and moved, not scaled."
  },
  {
   "property": "C129",
   "status": "partial",
   "theorems": [
    "C129_methods_find_their_attributes_partial",
    "C129_broken_getters_refuted"
   ],
   "note": "False of the code for two methods: RayTracer.get_system reads _system and EdgeRender.get_results reads _frame, which nothing assigns. The refutation shows that they fail after every history; the partial theorem shows the property for all others. The model keeps reads and assignments of attributes of self, in the order of the code, and the values of _state and _state_machine; all other values are left out, so every way a test or loop may go is allowed."
  },
  {
   "property": "C130",
   "status": "partial",
   "theorems": [
    "C130_a_finished_movement_mends_partial",
    "C130_interrupted_movements_refuted",
    "C130_pin_mends",
    "C130_pin_displaces_parts_refuted",
    "C130_cut_composites_exactly",
    "C130_same_movements",
    "C130_same_walk"
   ],
   "note": "The first sentence is false of the code: the refutation interrupts a move of a cube after each of the first three assignments; the world transform has moved and the object transform has not. The second sentence is proved, with the exact condition for the next movement to return and the transform it leads to. C130_pin_mends shows the same of leaving a pin context. C130_same_movements ties the steps to the movements of World.v. For CSG objects and groups the movement runs over several objects: C130_pin_displaces_parts_refuted shows that one interrupted between the object and its parts is not mended but made worse by leaving a pin context, and C130_cut_composites_exactly says what becomes of each part wherever between two parts the interrupt came. Interrupts within the movement of one part of a composite are not covered."
  }
 ]
}