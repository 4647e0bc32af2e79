# What Print Assumptions lists for each theorem

Generated from the output of `Print Assumptions` in the `Props_*.v` files.

## No axioms (closed under the global context)

* Props_Attributes: `C129_methods_find_their_attributes_partial`, `C129_broken_getters_refuted`
* Props_Batch: `C68_wrong_length_is_refused`
* Props_Rounded: `C93_trace_ends_whatever_the_rounding`, `C93_rows_well_formed_whatever_the_rounding`, `C93_smaller_limits_cut_whatever_the_rounding`, `C93_intensity_has_no_influence_whatever_the_rounding`, `C93_each_ray_as_if_alone`, `C93_absorbed_rays_recorded_once`
* Props_Session: `C105_value_settings`
* Props_Utils: `C61_single_wavelength_refuted`, `C63_constant_index`

## `ClassicalDedekindReals.sig_forall_dec`

* Props_Batch: `C68_setting_one_field`, `C81_sources_write_rows`, `C81_joined_sets`, `C81_masked_rays`
* Props_Ops: `C28_all_call_shapes_agree`

## `FunctionalExtensionality.functional_extensionality_dep`, `ClassicalDedekindReals.sig_forall_dec`

* Props_Array: `C13_reflect_ray_by_ray`
* Props_Band: `C103_told_is_the_solid`
* Props_Batch: `C68_new_set`, `C81_new_set_holds_default_rays`, `C67_rectangle`, `C67_overlap`, `C67_overlap_of_nothing_raises`
* Props_Csg: `C01_array_csg_is_boolean_combination`, `C02_array_csg_output_is_well_formed`, `C02_array_csg_unknown_operation_raises`
* Props_Focus: `C116_focus_does_not_depend_on_the_screen`
* Props_Hits: `C99_hits_lie_on_flat_faces`
* Props_Ops: `C28_reflect_obeys_the_law_of_reflection`
* Props_Prim: `C10_paraboloid_rejects_nonpositive`
* Props_Render: `C64_corners_of_the_view`
* Props_Seen: `C102_the_box_of_a_union`
* Props_Shapes: `C118_what_is_refused`
* Props_Step: `C112_off_a_flat_face`
* Props_StepBowl: `C99_axial_hits_lie_on_paraboloids`
* Props_Utils: `C62_focal_length_of_the_thick_lens`, `C62_turned_lens`, `C62_plano_lens`

## `Classical_Prop.classic`, `FunctionalExtensionality.functional_extensionality_dep`, `ClassicalDedekindReals.sig_forall_dec`

* Props_Tree: `C06_box_culling_drops_nothing_partial`

## `FunctionalExtensionality.functional_extensionality_dep`, `ClassicalDedekindReals.sig_forall_dec`, `ClassicalDedekindReals.sig_not_dec`

* Props_Apart: `C108_strangers_do_not_interfere`, `C108_solids_of_strangers_look_the_same`, `C108_new_objects_leave_old_ones_alone`
* Props_Array: `C13_normals_ray_by_ray`, `C13_refract_ray_by_ray`, `C13_materials_ray_by_ray`, `C82_array_tracer_is_the_ray_by_ray_tracer`
* Props_Ball: `C126_a_ball_turns_rays_twice`, `C126_aplanatic_points`
* Props_Band: `C103_cube`, `C103_plane`, `C103_cylinder`, `C103_paraboloid`, `C103_round_lenses_vanish`, `C103_lenses_are_seen_refuted`, `C32_small_leading_coefficients_partial`, `C33_linear_equations_refuted`, `C12_dead_rays_in_paraboloids_partial`
* Props_Batch: `C13_every_ray_as_if_alone`, `C13_primitives_ray_by_ray`, `C13_shapes_ray_by_ray`, `C13_propagate_ray_by_ray`, `C67_disk`, `C67_disk_radius`
* Props_Block: `C128_rays_leave_a_block_as_they_entered_it`, `C128_plates_shift_rays`
* Props_Boxes: `C19_boxes_after_a_move_exactly`, `C20_moving_an_operand_exactly`, `C20_moving_deeper_parts_changes_nothing`, `C20_other_boxes_stay`
* Props_Chroma: `C115_colour_matters_only_through_the_index`
* Props_Components: `C52_lenses_and_mirrors_span_their_aperture_partial`, `C52_aperture_stop`, `C52_baffle_is_turned_refuted`, `C53_thick_lens_is_the_solid_between_its_surfaces_partial`, `C53_lens_thicker_than_its_sphere_refuted`, `C54_biconvex_with_equal_radii_partial`, `C54_plano_convex`, `C54_different_radii_refuted`, `C54_negative_radii_refuted`, `C55_disks_and_rectangles_partial`, `C55_ellipses_and_round_baffles_refuted`, `C59_prism`, `C76_documented_placement_refuted`
* Props_CutParts: `C130_pin_displaces_parts_refuted`
* Props_CutWalk: `C130_same_walk`, `C130_cut_composites_exactly`
* Props_Drift: `C117_a_move_rounds_once`, `C117_moves_add_up`
* Props_Edges: `C16_normals_exactly`, `C16_normals_are_given_exactly`
* Props_FlOptics: `C106_normals_point_along_the_exact_normal`, `C106_mirrors_obey_the_law_of_reflection`, `C106_glasses_obey_snells_law`, `C106_every_interaction_is_lawful`
* Props_Float: `C94_normalised_vectors_are_unit`, `C94_glass_forgets_the_length`, `C94_directions_keep_unit_length`, `C94_live_rays_are_not_taken_for_absorbed`, `C94_rays_end_only_where_they_should`
* Props_GlassCache: `C114_cache_is_invisible_partial`, `C114_indices_are_current`, `C114_abbe_numbers_were_right_once`, `C114_old_numbers_last`, `C114_the_abbe_number`, `C114_one_index_has_no_abbe_number`, `C114_stale_abbe_number_refuted`
* Props_Hits: `C99_hits_lie_on_spheres`, `C99_distance_from_the_sphere`, `C99_hits_lie_on_cylinders`, `C99_hits_lie_on_paraboloids`, `C100_two_hits_or_none`, `C100_clear_crossings_of_spheres`, `C100_sides_of_spheres`, `C100_clear_crossings_of_cylinders`, `C100_sides_of_cylinders`
* Props_Images: `C120_images_in_flat_mirrors`, `C120_two_mirrors`, `C120_corner_reflector`, `C120_planes_are_flat`
* Props_Interrupt: `C130_a_finished_movement_mends_partial`, `C130_same_movements`, `C130_pin_mends`, `C130_interrupted_movements_refuted`
* Props_Lens: `C53_thick_lens_exactly`, `C53_as_asked_exactly_when`, `C54_biconvex_exactly`, `C54_thickness_exactly`, `C54_as_asked_exactly_when`
* Props_Light: `C121_faces_to_the_viewer_exactly`, `C121_blocks_are_lit_partial`, `C121_low_scene_refuted`, `C121_deep_scene_refuted`
* Props_Limit: `C34_limits_of_zero_or_less_exactly`
* Props_Listed: `C41_every_trace_exactly`, `C40_unknown_surfaces_exactly`
* Props_Medium: `C16_normals_part_inside_from_outside`, `C97_touching_glass_refuted`
* Props_Mirrors: `C101_parabolic_mirror`, `C101_confocal_mirrors`, `C101_spherical_mirror`, `C101_plane_mirror`
* Props_Motion: `C83_moving_the_bench_moves_the_rows`, `C83_moving_every_surface`, `C83_translating_every_component_partial`
* Props_Moved: `C109_boxes_after_a_movement`, `C109_idle_movements_repair_the_boxes`
* Props_Nearest: `C65_every_pixel_exactly`, `C65_what_is_put_forward`, `C65_right_exactly_when`
* Props_Normal: `C14_world_hits_delimit_the_placed_solid`, `C14_world_hits_lie_on_the_placed_surface`, `C14_hit_parameter_is_the_distance`, `C15_world_normals_are_unit_and_perpendicular`, `C15_inverted_normals_are_the_negatives`, `C15_world_normals_point_outward`, `C16_primitive_normals_are_outward_partial`, `C16_thin_cuboid_refuted`, `C18_surface_box_contains_the_placed_solid`, `C18_surface_box_is_touched_by_corners`
* Props_Ops: `C29_refract_obeys_snell`, `C30_total_internal_reflection`, `C30_reflection_only_when_total`, `C31_refraction_is_reversible`, `C32_quadratic_roots_partial`, `C32_linear_root_partial`, `C32_constant_partial`, `C32_tiny_leading_coefficient_refuted`, `C33_smallest_root_partial`, `C33_negative_leading_coefficient_refuted`
* Props_Optics: `C56_thin_round_mirror_partial`, `C56_thick_mirror_partial`, `C56_thin_rectangle_refuted`, `C57_parallel_rays_meet_in_the_origin`, `C57_rays_from_the_origin_leave_parallel`, `C58_aperture_minus_sphere`, `C58_rays_through_the_centre_return`, `C58_infinite_radius_refuted`, `C60_plate_keeps_the_direction`, `C92_parallel_rays_cross_near_the_focal_point`
* Props_Pin: `C26_one_pinned_object_exactly`, `C26_part_moved_alone_refuted`
* Props_Pixels: `C111_which_surface_a_pixel_shows`, `C111_same_as_a_traced_ray`, `C111_behind_hides_ahead`, `C111_xy_view`, `C111_xz_view`
* Props_Prim: `C07_sphere_hits_exact`, `C08_cube_hits_exact`, `C09_cylinder_hits_exact_partial`, `C09_cylinder_hits_exact_refuted`, `C10_paraboloid_hits_exact`, `C11_plane_hits_exact`, `C07_C11_hits_lie_on_the_surface`
* Props_Prism: `C96_prism_refracts_twice`
* Props_Quat: `C104_objects_that_never_scale_are_rotated_partial`, `C104_the_quaternion_turns_directions_like_the_object_partial`, `C104_orientation_and_quaternion_agree_partial`, `C104_a_rotation_multiplies_quaternions_partial`, `C104_quaternions_of_histories_partial`, `C104_scaling_alone_is_no_rotation_partial`, `C104_scaled_objects_refuted`, `C104_evenly_scaled_objects_exactly`, `C104_even_programs`
* Props_Refs: `C113_transforms_are_never_shared`, `C113_nothing_is_shared_partial`, `C113_positions_are_shared_refuted`, `C113_a_movement_restores_the_place`, `C113_what_is_held_stays`
* Props_Refused: `C23_which_movements_succeed`, `C23_what_a_failed_movement_leaves`, `C23_movements_without_inverse_fail`
* Props_Removal: `C85_components_no_row_names_can_be_removed`, `C86_smaller_limits_cut_the_frame`
* Props_Render: `C64_camera_rays_cover_the_view`, `C65_nearest_surface_ahead_partial`, `C65_behind_the_camera_refuted`, `C66_pixels_stay_in_range_partial`, `C66_array_of_lights_refuted`, `C77_edge_image_marks_the_outlines`, `C78_xy_view_from_above_partial`, `C79_xz_view_from_the_front_partial`, `C78_C79_parts_bound_the_hits`, `C78_scene_below_zero_refuted`, `C79_scene_before_zero_refuted`, `C80_shaded_pixels`
* Props_Rod: `C127_held_once_is_held_for_ever`, `C127_rods_deliver_what_enters_at_an_end`
* Props_Rounded: `C93_exact_arithmetic_is_a_case`
* Props_Session: `C105_results_are_snapshots`, `C105_settings_last`, `C105_settings_are_read_back`, `C105_lists_are_shared`, `C105_tracing_lists`, `C105_methods`, `C105_iterators_are_used_up`, `C105_any_iterable_refuted`, `C105_loaded_iterators_serve_one_generation`, `C105_iterators_of_sources_serve_one_trace`
* Props_Shade: `C125_absorbers_only_cut_histories_short`, `C125_absorbers_add_no_other_rows`
* Props_Shapes: `C118_shapes_are_as_asked_partial`, `C118_signs_and_orders_do_not_matter`, `C118_heights_in_the_wrong_order_refuted`, `C118_negative_sides_refuted`, `C118_readers`
* Props_Show: `C90_the_picture_frames_the_scene_partial`, `C90_disjoint_union_refuted`, `C91_renderers_draw_the_scene_as_it_stands`
* Props_Skew: `C122_skewness_is_kept`, `C122_the_part_along_an_edge_is_kept`, `C122_round_benches`, `C122_symmetric_surfaces_are_round`, `C122_lenses_are_round`, `C122_lenses_keep_the_skewness`
* Props_SourceIds: `C47_source_ids_exactly`
* Props_Step: `C112_off_a_sphere`, `C112_off_a_cylinder`
* Props_StepBowl: `C100_clear_crossings_of_paraboloids`, `C100_sides_of_paraboloids`, `C112_off_a_paraboloid`, `C112_off_a_paraboloid_along_its_axis`
* Props_Stop: `C123_baffles_absorb`, `C123_stops_absorb_partial`, `C123_openings_let_by`, `C123_stops_do_nothing_else_partial`, `C123_ties_refuted`
* Props_Symmetry: `C84_symmetric_scenes_give_symmetric_results`, `C84_rays_of_the_plane_stay_in_it`, `C84_axis_rays_stay_on_the_axis`, `C84_lenses_are_symmetric`, `C84_mirrors_are_symmetric`
* Props_Trace: `C34_trace_terminates_partial`, `C34_proper_scenes_trace_to_the_end`, `C34_programs_reach_proper_scenes`, `C34_limit_not_positive_refuted`, `C35_well_formed_histories_partial`, `C35_limit_zero_refuted`, `C36_segments_connected_and_straight_partial`, `C36_shared_surface_refuted`, `C37_rows_name_the_first_surface`, `C37_no_row_without_a_hit`, `C38_nearest_distance_independent_of_order`, `C38_surface_independent_of_order`, `C38_frame_independent_of_order`, `C39_intensity_has_no_influence`, `C39_intensity_threshold_refuted`, `C40_load_known_components_partial`, `C40_load_components_refuted`, `C41_each_hit_applied_once_partial`, `C41_shared_surface_refuted`, `C42_wavelength_and_intensity_carried`, `C43_tilts_are_unit`, `C44_index_bookkeeping`, `C45_absorbed_rays_recorded_once`, `C46_trace_is_repeatable`, `C46_repeated_trace_succeeds`, `C47_source_ids_partial`, `C47_rays_per_source_changed_refuted`, `C72_rays_are_independent`, `C73_rows_in_order`, `C74_interactions_obey_the_optical_laws`
* Props_Tree: `C03_csg_rows_come_from_the_children`, `C03_every_hit_names_the_surface_hit`, `C05_disjoint_union_refuted`, `C06_touching_boxes_refuted`, `C06_stored_boxes_contain_the_solid`, `C12_dead_rays_hit_nothing_partial`, `C12_dead_ray_in_paraboloid_refuted`
* Props_Utils: `C63_sellmeier_equation`, `C63_catalogue_index_above_one`, `C63_catalogue_normal_dispersion`, `C63_catalogue_abbe_number`, `C63_catalogue_glasses_can_be_traced`, `C63_catalogue_values`
* Props_World: `C17_a_leaf_is_inverted_when_subtracted_at_all`, `C17_csg_normals_partial`, `C17_nested_difference_refuted`, `C18_bounding_volume_after_any_history`, `C19_fresh_boxes_are_current`, `C19_moving_keeps_boxes_current_partial`, `C19_right_nested_union_refuted`, `C20_moving_an_operand_updates_the_box_partial`, `C20_moving_a_grandchild_refuted`, `C21_object_coordinates_stay_consistent`, `C22_histories_compose`, `C22_moves_add_up_and_commute`, `C22_move_shifts_points`, `C22_rotations_about_one_axis_add`, `C22_rotations_are_undone_by_the_opposite_angle`, `C22_quarter_turns_follow_the_right_hand_rule`, `C22_moves_and_rotations_preserve_distances`, `C22_scale_multiplies_coordinates`, `C23_rejected_arguments_change_nothing_partial`, `C23_which_arguments_are_rejected`, `C23_singular_scale_refuted`, `C24_transform_reaches_every_part_once_per_listing`, `C24_group_of_simple_members`, `C25_csg_tree_moves_every_node_once`, `C25_shared_operand_refuted`, `C26_pinned_objects_are_restored_partial`, `C26_parts_are_restored_after_whole_moves_partial`, `C26_child_before_parent_refuted`, `C27_ids_are_unique`, `C27_an_id_never_changes`, `C69_movement_calls_return_without_cyclic_groups`, `C69_self_containing_group_refuted`, `C70_moves_and_rotations_never_raise`

## `Classical_Prop.classic`, `FunctionalExtensionality.functional_extensionality_dep`, `ClassicalDedekindReals.sig_forall_dec`, `ClassicalDedekindReals.sig_not_dec`

* Props_Array: `C82_array_sources_are_the_ray_by_ray_sources`, `C82_frame_of_placed_sources`
* Props_Band: `C103_hits_for_every_ray`, `C33_all_quadratics_partial`
* Props_Bundles: `C48_circle_rays_exactly`, `C48_circle_of_one_ray`, `C48_cone_rays_exactly`, `C48_cone_of_one_ray_exactly`
* Props_Chroma: `C115_short_waves_converge_more`, `C115_short_waves_diverge_more`
* Props_Crossing: `C95_first_hits_are_first_crossings_partial`, `C95_rays_that_cross_nothing_are_dropped_partial`, `C95_rows_end_at_the_first_crossing_partial`, `C95_rays_end_in_the_open_partial`
* Props_Drift: `C117_objects_drift_slowly`, `C117_in_binary64`, `C117_round_trips_return`, `C117_parts_stay_together`, `C117_small_moves_are_lost_refuted`
* Props_FlOptics: `C106_binary64`
* Props_Float: `C94_directions_keep_unit_length_in_binary64`, `C94_binary64_rounds`
* Props_Focus: `C116_slopes_are_gaussian`, `C116_rows_tell_the_focus`, `C116_measured_focus_is_the_lensmakers`, `C116_light_from_the_focus_leaves_parallel`, `C116_trains_collimate`
* Props_Gauss: `C87_near_the_axis_the_lens_is_gaussian`, `C87_parallel_rays_meet_at_the_focal_point`, `C87_points_are_imaged`
* Props_Hits: `C99_hits_lie_on_spheres_in_binary64`
* Props_Ink: `C89_rays_by_source_exactly`
* Props_Kinds: `C110_lenses_focus_as_documented_partial`, `C110_mixed_train`, `C110_unequal_radii_refuted`
* Props_Medium: `C97_rows_record_the_index_they_run_in`
* Props_Met: `C119_moved_spheres_are_met`, `C119_moved_cylinders_are_met`, `C119_moved_faces_are_met`, `C119_in_binary64`
* Props_MetBowl: `C119_moved_paraboloids_are_met`, `C119_paraboloids_in_binary64`
* Props_Motion: `C83_moved_sources_emit_moved_rays`, `C83_moving_a_union_refuted`
* Props_Prism: `C96_prism_deviation`, `C96_prism_spreads_colours`, `C96_spectrum_is_in_order`, `C96_spectrum_on_a_screen`
* Props_Reverse: `C98_rays_sent_back_retrace_their_path`
* Props_Seen: `C102_hits_delimit_what_is_shown`, `C102_a_union_shows_both_parts_or_nothing`, `C102_nothing_is_invented`, `C102_a_hole_can_be_lost`
* Props_Sheet: `C124_plates_are_hit_where_they_are_left_partial`, `C124_plates_let_by_where_they_are_cut_partial`, `C124_left_or_cut`, `C124_only_the_plate_is_hit_partial`, `C124_openings_are_the_same_from_both_sides_refuted`
* Props_Show: `C88_the_legs_are_drawn`, `C88_nothing_drawn_without_a_trace`, `C88_which_scenes_can_be_shown`, `C88_no_components_cannot_be_shown`, `C88_other_views_never_shown`, `C89_rays_by_wavelength`, `C89_rays_by_source_partial`, `C89_one_colour_otherwise`, `C89_rays_per_source_changed_refuted`
* Props_Sources: `C48_line_of_rays`, `C48_circle_of_rays_partial`, `C48_circle_rays_distinct_refuted`, `C48_cone_of_rays_partial`, `C48_single_cone_ray_refuted`, `C48_wedge_of_rays`, `C49_placed_sources_emit_placed_rays`, `C50_lamp_rays_within_lamp_and_cone`, `C75_lamp_directions_follow_solid_angle`, `C51_static_lamp_repeats_partial`, `C51_static_lamp_repeats_refuted`, `C51_static_lamp_exactly`, `C51_static_lamp_matches_its_place_partial`, `C51_static_lamp_matches_its_place_refuted`
* Props_Step: `C112_off_a_sphere_in_binary64`, `C112_off_a_flat_face_in_binary64`, `C112_offset_lost_far_away_refuted`
* Props_StepBowl: `C112_off_a_paraboloid_in_binary64`
* Props_Train: `C107_trains_of_lenses_are_gaussian`, `C107_trains_of_lenses_form_images`
* Props_Tree: `C04_csg_hits_delimit_the_solid_partial`, `C05_union_reports_every_part_partial`
* Props_Utils: `C61_colours_are_total_bounded_and_continuous_partial`, `C61_colours_tell_visible_wavelengths_apart`
* Props_World: `C71_a_built_and_moved_solid_is_seen_where_it_is_partial`
