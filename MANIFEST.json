{
 "claims": [
  {
   "property": "C01",
   "status": "proved",
   "theorems": [
    "C01_library_builds",
    "C01_library_groups_are_groups"
   ],
   "note": ""
  },
  {
   "property": "C02",
   "status": "proved",
   "theorems": [
    "C02_derived_groups_are_groups",
    "C02_derived_groups_act_as_in_parent"
   ],
   "note": ""
  },
  {
   "property": "C03",
   "status": "proved",
   "theorems": [
    "C03_inverses_computed",
    "C03_any_table"
   ],
   "note": ""
  },
  {
   "property": "C04",
   "status": "proved",
   "theorems": [
    "C04_composition_is_first_c_then_r",
    "C04_docstring_refuted"
   ],
   "note": "The docstring's reading is refuted by C04_docstring_refuted."
  },
  {
   "property": "C05",
   "status": "proved",
   "theorems": [
    "C05_grid_action_is_a_left_action"
   ],
   "note": ""
  },
  {
   "property": "C06",
   "status": "proved",
   "theorems": [
    "C06_what_each_element_does",
    "C06_symmetries_of_the_cube"
   ],
   "note": ""
  },
  {
   "property": "C07",
   "status": "proved",
   "theorems": [
    "C07_distinct_elements_act_differently",
    "C07_orders"
   ],
   "note": ""
  },
  {
   "property": "C08",
   "status": "proved",
   "theorems": [
    "C08_shape_of_grid_action",
    "C08_shape_of_group_action"
   ],
   "note": ""
  },
  {
   "property": "C09",
   "status": "proved",
   "theorems": [
    "C09_accepted_shapes",
    "C09_D4h_D4_accept_only_cubes",
    "C09_D4_cuboid_refuted"
   ],
   "note": "The README presents D4h/D4 as the symmetries of a cuboid with depth different from height and width; that such a cuboid is accepted is refuted by C09_D4_cuboid_refuted and C09_D4h_D4_accept_only_cubes."
  },
  {
   "property": "C10",
   "status": "proved",
   "theorems": [
    "C10_action_on_group_signals",
    "C10_action_on_subgroup_signals"
   ],
   "note": ""
  },
  {
   "property": "C11",
   "status": "proved",
   "theorems": [
    "C11_subgroup_object_acts_alike",
    "C11_group_accepts",
    "C11_every_shape_refuted"
   ],
   "note": ""
  },
  {
   "property": "C12",
   "status": "proved",
   "theorems": [
    "C12_subgroup_rows_of_grid_action"
   ],
   "note": ""
  },
  {
   "property": "C13",
   "status": "proved",
   "theorems": [
    "C13_upsample_extends_by_zero",
    "C13_upsample_commutes_with_action"
   ],
   "note": ""
  },
  {
   "property": "C14",
   "status": "proved",
   "theorems": [
    "C14_subgroup_lists",
    "C14_subgroup_names"
   ],
   "note": ""
  },
  {
   "property": "C15",
   "status": "proved",
   "theorems": [
    "C15_cosets_factor_uniquely"
   ],
   "note": ""
  },
  {
   "property": "C16",
   "status": "proved",
   "theorems": [
    "C16_least_padding",
    "C16_build_succeeds_iff",
    "C16_valid_equiv_raises_ValueError",
    "C16_same_equiv_raises_AttributeError",
    "C16_ValueError_refuted"
   ],
   "note": ""
  },
  {
   "property": "C17",
   "status": "proved",
   "theorems": [
    "C17_plain_padding_checked",
    "C17_allowed_never_pads"
   ],
   "note": ""
  },
  {
   "property": "C18",
   "status": "proved",
   "theorems": [
    "C18_total_padding_symmetric"
   ],
   "note": ""
  },
  {
   "property": "C19",
   "status": "proved",
   "theorems": [
    "C19_only_a_zero_border"
   ],
   "note": ""
  },
  {
   "property": "C20",
   "status": "proved",
   "theorems": [
    "C20_padding_of_channels_first_layers",
    "C20_padded_channels_raise",
    "C20_channels_first_equivariance_refuted",
    "C20_padding_of_channels_first_pooling",
    "C20_channels_first_pooling_refuted"
   ],
   "note": ""
  },
  {
   "property": "C21",
   "status": "proved",
   "theorems": [
    "C21_lifting_convolution_is_equivariant"
   ],
   "note": ""
  },
  {
   "property": "C22",
   "status": "proved",
   "theorems": [
    "C22_group_convolution_is_equivariant"
   ],
   "note": ""
  },
  {
   "property": "C23",
   "status": "proved",
   "theorems": [
    "C23_slice_is_an_ordinary_convolution",
    "C23_trivial_subgroup",
    "C23_transposed_slice"
   ],
   "note": ""
  },
  {
   "property": "C24",
   "status": "proved",
   "theorems": [
    "C24_kernel_is_transformed_by_the_action",
    "C24_transposed_kernel"
   ],
   "note": ""
  },
  {
   "property": "C25",
   "status": "proved",
   "theorems": [
    "C25_bias_is_shared"
   ],
   "note": ""
  },
  {
   "property": "C26",
   "status": "proved",
   "theorems": [
    "C26_transposed_lifting_convolution",
    "C26_transposed_group_convolution",
    "C26_even_kernel_same_refuted"
   ],
   "note": ""
  },
  {
   "property": "C27",
   "status": "proved",
   "theorems": [
    "C27_transposed_convolution_any_stride",
    "C27_every_transposed_layer_that_builds_refuted"
   ],
   "note": ""
  },
  {
   "property": "C28",
   "status": "proved",
   "theorems": [
    "C28_filled_with_the_first_entry",
    "C28_extension_by_zero_refuted"
   ],
   "note": ""
  },
  {
   "property": "C29",
   "status": "proved",
   "theorems": [
    "C29_output_shape",
    "C29_transposed_output_shape"
   ],
   "note": ""
  },
  {
   "property": "C30",
   "status": "proved",
   "theorems": [
    "C30_compute_output_shape",
    "C30_agrees_without_extra_padding",
    "C30_proper_subgroup_refuted",
    "C30_extra_padding_refuted",
    "C30_in_channels_first",
    "C30_agrees_in_channels_first",
    "C30_before_build",
    "C30_before_build_other_calls"
   ],
   "note": ""
  },
  {
   "property": "C31",
   "status": "proved",
   "theorems": [
    "C31_subgroup_pooling"
   ],
   "note": ""
  },
  {
   "property": "C32",
   "status": "proved",
   "theorems": [
    "C32_pooling_is_equivariant",
    "C32_same_equiv_refuted",
    "C32_pool_size_refuted"
   ],
   "note": ""
  },
  {
   "property": "C33",
   "status": "proved",
   "theorems": [
    "C33_default_strides",
    "C33_default_strides_refuted"
   ],
   "note": ""
  },
  {
   "property": "C34",
   "status": "proved",
   "theorems": [
    "C34_global_pooling_is_invariant",
    "C34_what_global_pooling_computes",
    "C34_other_letter_case"
   ],
   "note": ""
  },
  {
   "property": "C35",
   "status": "proved",
   "theorems": [
    "C35_successful_calls_change_nothing",
    "C35_what_a_failing_call_leaves",
    "C35_failing_call_refuted"
   ],
   "note": ""
  },
  {
   "property": "C36",
   "status": "proved",
   "theorems": [
    "C36_index_tensor_identity"
   ],
   "note": ""
  },
  {
   "property": "C37",
   "status": "proved",
   "theorems": [
    "C37_merge_axes_moves_every_entry",
    "C37_split_undoes_merge",
    "C37_merge_undoes_split",
    "C37_axes_from_the_end",
    "C37_mixed_axes_refuted",
    "C37_restoring_the_group_axis"
   ],
   "note": ""
  },
  {
   "property": "C38",
   "status": "proved",
   "theorems": [
    "C38_a_number_means_the_shapes_fit",
    "C38_mixing_samples_refuted",
    "C38_check_equivariance_decides",
    "C38_lifting_convolutions_pass",
    "C38_group_convolutions_pass",
    "C38_pooling_passes"
   ],
   "note": ""
  },
  {
   "property": "C39",
   "status": "proved",
   "theorems": [
    "C39_stacks_are_equivariant",
    "C39_lifting_stacks_are_equivariant",
    "C39_stacks_return",
    "C39_stacks_with_global_pooling_are_invariant",
    "C39_lifting_stacks_with_global_pooling_are_invariant"
   ],
   "note": ""
  },
  {
   "property": "C40",
   "status": "proved",
   "theorems": [
    "C40_get_config_refuted",
    "C40_pooling_get_config_refuted"
   ],
   "note": ""
  },
  {
   "property": "C41",
   "status": "proved",
   "theorems": [
    "C41_empty_name_is_the_whole_group",
    "C41_none_refuted",
    "C41_unknown_names_are_rejected",
    "C41_other_groups_are_rejected",
    "C41_constructor_accepts_listed_names",
    "C41_built_layers_have_listed_subgroups",
    "C41_pooling_none_refuted",
    "C41_pooling_empty_name_is_the_whole_group",
    "C41_pooling_other_groups_are_rejected",
    "C41_pooling_constructor_accepts_listed_names",
    "C41_pooling_unknown_names_are_rejected",
    "C41_built_pooling_has_a_listed_subgroup",
    "C41_transposed_lifting_refuted"
   ],
   "note": ""
  },
  {
   "property": "C42",
   "status": "proved",
   "theorems": [
    "C42_merge_with_unknown_batch",
    "C42_split_with_unknown_batch"
   ],
   "note": ""
  },
  {
   "property": "C43",
   "status": "proved",
   "theorems": [
    "C43_any_strides_without_exchanged_axes",
    "C43_different_strides_refuted"
   ],
   "note": ""
  },
  {
   "property": "C44",
   "status": "proved",
   "theorems": [
    "C44_dilated_kernels",
    "C44_even_kernel_even_dilation_refuted"
   ],
   "note": ""
  },
  {
   "property": "C45",
   "status": "proved",
   "theorems": [
    "C45_other_sizes",
    "C45_arbitrary_other_size_refuted"
   ],
   "note": ""
  },
  {
   "property": "C46",
   "status": "proved",
   "theorems": [
    "C46_convolution_formats",
    "C46_layers_without_padding"
   ],
   "note": ""
  },
  {
   "property": "C47",
   "status": "proved",
   "theorems": [
    "C47_accepted_options",
    "C47_accepted_iff_documented",
    "C47_option_for_the_backend",
    "C47_other_letter_case",
    "C47_any_letter_case_refuted"
   ],
   "note": ""
  },
  {
   "property": "C48",
   "status": "proved",
   "theorems": [
    "C48_pooling_slice"
   ],
   "note": ""
  },
  {
   "property": "C49",
   "status": "proved",
   "theorems": [
    "C49_convolutions_treat_samples_independently",
    "C49_pooling_treats_samples_independently",
    "C49_global_pooling_treats_samples_independently"
   ],
   "note": ""
  },
  {
   "property": "C50",
   "status": "proved",
   "theorems": [
    "C50_subgroups_of_subgroups",
    "C50_listed_subgroups_are_in_the_library"
   ],
   "note": ""
  },
  {
   "property": "C51",
   "status": "proved",
   "theorems": [
    "C51_pooling_formats",
    "C51_pooling_without_padding",
    "C51_global_pooling_formats"
   ],
   "note": ""
  },
  {
   "property": "C52",
   "status": "proved",
   "theorems": [
    "C52_channels_first_convolution",
    "C52_channels_first_stride_one",
    "C52_channels_first_transposed",
    "C52_channels_first_pooling",
    "C52_channels_first_pooling_default_strides"
   ],
   "note": ""
  },
  {
   "property": "C53",
   "status": "proved",
   "theorems": [
    "C53_sizes_per_axis",
    "C53_when_the_constructor_accepts",
    "C53_when_convolutions_build"
   ],
   "note": ""
  },
  {
   "property": "C54",
   "status": "proved",
   "theorems": [
    "C54_subgroup_layer_is_a_restriction",
    "C54_whole_group_layer_exists"
   ],
   "note": ""
  },
  {
   "property": "C55",
   "status": "proved",
   "theorems": [
    "C55_convolution_of_a_translated_signal",
    "C55_convolution_of_a_part",
    "C55_transposed_convolution_of_a_translated_signal",
    "C55_pooling_of_a_part"
   ],
   "note": ""
  },
  {
   "property": "C56",
   "status": "proved",
   "theorems": [
    "C56_negative_spatial_axes",
    "C56_negative_new_axis",
    "C56_group_signals_negative_spatial_axes",
    "C56_group_signals_negative_new_axis",
    "C56_both_negative_acts_on_the_next_axes",
    "C56_negative_new_axis_behind",
    "C56_negative_spatial_axes_in_front",
    "C56_space_groups_refuse_negative_spatial_axes",
    "C56_negative_axes_refuted",
    "C56_negative_group_axis_refuted"
   ],
   "note": ""
  },
  {
   "property": "C57",
   "status": "proved",
   "theorems": [
    "C57_sizes_per_axis",
    "C57_when_the_constructor_accepts",
    "C57_when_pooling_builds"
   ],
   "note": ""
  },
  {
   "property": "C58",
   "status": "proved",
   "theorems": [
    "C58_signals_without_group_axis"
   ],
   "note": ""
  },
  {
   "property": "C59",
   "status": "proved",
   "theorems": [
    "C59_position_wise_layers_on_group_signals",
    "C59_position_wise_layers_on_grid_signals",
    "C59_scale_per_group_element_refuted"
   ],
   "note": ""
  },
  {
   "property": "C60",
   "status": "proved",
   "theorems": [
    "C60_networks_are_equivariant",
    "C60_networks_with_global_pooling_are_invariant"
   ],
   "note": ""
  },
  {
   "property": "C61",
   "status": "proved",
   "theorems": [
    "C61_when_transposed_convolutions_build",
    "C61_stride_equal_to_kernel"
   ],
   "note": ""
  },
  {
   "property": "C62",
   "status": "proved",
   "theorems": [
    "C62_encoders_and_decoders_are_equivariant",
    "C62_transforms_are_unique",
    "C62_encoders_with_global_pooling_are_invariant"
   ],
   "note": ""
  },
  {
   "property": "C63",
   "status": "proved",
   "theorems": [
    "C63_unknown_sizes_are_rejected",
    "C63_unknown_sizes_are_accepted",
    "C63_sizes_do_not_matter",
    "C63_output_shape",
    "C63_pooling_rejects_unknown_sizes",
    "C63_pooling_sizes_do_not_matter"
   ],
   "note": ""
  },
  {
   "property": "C64",
   "status": "proved",
   "theorems": [
    "C64_one_unknown_size",
    "C64_two_unknown_sizes",
    "C64_pooling_one_unknown_size",
    "C64_pooling_two_unknown_sizes"
   ],
   "note": ""
  },
  {
   "property": "C65",
   "status": "proved",
   "theorems": [
    "C65_wallpaper_groups_need_two_axes",
    "C65_space_groups_ignore_the_other_axes",
    "C65_wallpaper_convolutions_are_two_dimensional",
    "C65_space_group_layers_of_any_dimension"
   ],
   "note": ""
  },
  {
   "property": "C66",
   "status": "proved",
   "theorems": [
    "C66_convolutions_for_P1",
    "C66_transposed_convolutions_for_P1",
    "C66_when_convolutions_for_P1_build",
    "C66_when_transposed_convolutions_for_P1_build"
   ],
   "note": ""
  },
  {
   "property": "C67",
   "status": "proved",
   "theorems": [
    "C67_when_they_build",
    "C67_each_output_sees_one_block",
    "C67_one_group",
    "C67_equivariant_only_if_constant",
    "C67_calls_leave_the_layer",
    "C67_grouped_lifting_is_equivariant_refuted",
    "C67_grouped_layer_on_the_group_is_equivariant_refuted"
   ],
   "note": ""
  },
  {
   "property": "C68",
   "status": "proved",
   "theorems": [
    "C68_activation_of_all_outputs",
    "C68_entrywise_activation",
    "C68_symmetric_activations_keep_equivariance",
    "C68_calls_leave_the_layer",
    "C68_any_activation_keeps_equivariance_refuted"
   ],
   "note": ""
  },
  {
   "property": "C69",
   "status": "proved",
   "theorems": [
    "C69_every_equivariant_convolution_is_a_layer",
    "C69_equivariant_kernels",
    "C69_no_weight_is_redundant"
   ],
   "note": ""
  },
  {
   "property": "C70",
   "status": "proved",
   "theorems": [
    "C70_convolutions_pass_the_tests",
    "C70_transposed_convolutions_pass_the_tests",
    "C70_pooling_passes_the_tests",
    "C70_the_model_passes_the_tests"
   ],
   "note": ""
  },
  {
   "property": "C71",
   "status": "proved",
   "theorems": [
    "C71_subgroup_test_accepts_any_list_with_the_identity",
    "C71_other_axis_decides_closure",
    "C71_subgroup_test_detects_lists_that_are_not_closed_refuted"
   ],
   "note": ""
  },
  {
   "property": "C72",
   "status": "proved",
   "theorems": [
    "C72_pooling_in_two_steps",
    "C72_maximum_has_the_laws",
    "C72_mean_has_the_laws",
    "C72_pooling_in_two_steps_refuted"
   ],
   "note": ""
  },
  {
   "property": "C73",
   "status": "proved",
   "theorems": [
    "C73_pooling_before_global_pooling"
   ],
   "note": ""
  },
  {
   "property": "C74",
   "status": "proved",
   "theorems": [
    "C74_no_second_attempt",
    "C74_no_group_after_grid",
    "C74_other_attempts_leave_no_trace",
    "C74_lifting_after_group_attempt_cannot_be_called",
    "C74_building_again_breaks_the_layer",
    "C74_pooling_no_second_attempt"
   ],
   "note": ""
  },
  {
   "property": "C75",
   "status": "proved",
   "theorems": [
    "C75_when_the_announced_shape_is_right",
    "C75_nothing_follows_a_proper_subgroup",
    "C75_models_built_for_their_signals_are_equivariant",
    "C75_when_models_are_built_for_their_signals",
    "C75_models_without_padding_are_equivariant",
    "C75_padded_models_refuted",
    "C75_layers_called_one_after_the_other_are_equivariant",
    "C75_calling_the_layers_or_the_model"
   ],
   "note": ""
  },
  {
   "property": "C76",
   "status": "proved",
   "theorems": [
    "C76_pooling_everything_is_invariant",
    "C76_networks_without_padding_are_invariant",
    "C76_the_group_network_is_invariant",
    "C76_the_subgroup_network_is_invariant"
   ],
   "note": ""
  },
  {
   "property": "C77",
   "status": "proved",
   "theorems": [
    "C77_number_of_parameters",
    "C77_lifting_layers_have_as_many_parameters",
    "C77_group_signals_refuted"
   ],
   "note": ""
  },
  {
   "property": "C78",
   "status": "proved",
   "theorems": [
    "C78_linear_in_the_signal",
    "C78_linear_in_the_weights"
   ],
   "note": ""
  },
  {
   "property": "C79",
   "status": "proved",
   "theorems": [
    "C79_transposed_layers_are_adjoint"
   ],
   "note": ""
  },
  {
   "property": "C80",
   "status": "proved",
   "theorems": [
    "C80_unknown_subgroup_names_raise",
    "C80_convolution_for_a_described_group",
    "C80_transposed_layer_for_a_described_group",
    "C80_pooling_for_a_described_group",
    "C80_default_stride_pooling_for_a_described_group",
    "C80_global_pooling_for_a_described_group",
    "C80_default_subgroup_refuted"
   ],
   "note": ""
  },
  {
   "property": "C81",
   "status": "proved",
   "theorems": [
    "C81_library_groups_are_described",
    "C81_derived_groups_are_described",
    "C81_diagonal_group_is_described"
   ],
   "note": ""
  },
  {
   "property": "C82",
   "status": "proved",
   "theorems": [
    "C82_when_a_group_can_be_derived",
    "C82_without_a_parent"
   ],
   "note": ""
  },
  {
   "property": "C83",
   "status": "proved",
   "theorems": [
    "C83_subgroups_of_P4M",
    "C83_named_subgroups_of_P4M",
    "C83_all_subgroups_implemented_refuted",
    "C83_listed_inclusions"
   ],
   "note": ""
  },
  {
   "property": "C84",
   "status": "proved",
   "theorems": [
    "C84_every_equivariant_transposed_convolution_is_a_layer",
    "C84_equivariant_transposed_kernels",
    "C84_no_weight_is_redundant",
    "C84_proper_subgroup_refuted"
   ],
   "note": ""
  },
  {
   "property": "C85",
   "status": "proved",
   "theorems": [
    "C85_error_of_a_layer",
    "C85_convolutions_are_equivariant_up_to_rounding",
    "C85_transposed_layers_are_equivariant_up_to_rounding",
    "C85_what_check_equivariance_returns",
    "C85_floating_point",
    "C85_exact_equivariance_in_floating_point_refuted"
   ],
   "note": ""
  },
  {
   "property": "C86",
   "status": "proved",
   "theorems": [
    "C86_exactly_when_layers_commute",
    "C86_reversed_axes",
    "C86_the_check_is_exact",
    "C86_axes_that_stay_refuted",
    "C86_dilation_refuted",
    "C86_transposed_refuted"
   ],
   "note": ""
  },
  {
   "property": "C87",
   "status": "proved",
   "theorems": [
    "C87_the_activation_is_applied_last",
    "C87_gradients_exist",
    "C87_gradients_of_transformed_examples",
    "C87_convolutions",
    "C87_transposed_convolutions",
    "C87_other_layers_refuted"
   ],
   "note": ""
  },
  {
   "property": "C88",
   "status": "proved",
   "theorems": [
    "C88_one_result",
    "C88_backpropagation",
    "C88_entrywise_losses",
    "C88_pooled_losses",
    "C88_transformed_examples_train_the_same_weights",
    "C88_augmentation_changes_nothing",
    "C88_convolutions",
    "C88_transposed_convolutions"
   ],
   "note": ""
  },
  {
   "property": "C89",
   "status": "proved",
   "theorems": [
    "C89_exactly_when_pooling_commutes",
    "C89_reversed_axes",
    "C89_the_check_is_exact",
    "C89_maximum_and_mean",
    "C89_axes_that_stay_refuted",
    "C89_whole_windows_refuted",
    "C89_default_strides_refuted",
    "C89_exact_mean"
   ],
   "note": ""
  },
  {
   "property": "C90",
   "status": "proved",
   "theorems": [
    "C90_turning_back",
    "C90_kernel_as_a_function",
    "C90_lifting_convolution",
    "C90_group_convolution",
    "C90_transposed_lifting_convolution",
    "C90_transposed_group_convolution",
    "C90_impulse_response",
    "C90_plain_padding_refuted"
   ],
   "note": ""
  },
  {
   "property": "C91",
   "status": "proved",
   "theorems": [
    "C91_convolutions",
    "C91_pooling",
    "C91_global_pooling",
    "C91_action",
    "C91_max_pooling_and_increasing_functions",
    "C91_shifts_refuted"
   ],
   "note": ""
  },
  {
   "property": "C92",
   "status": "proved",
   "theorems": [
    "C92_error_of_a_layer",
    "C92_convolutions_are_equivariant_up_to_rounding",
    "C92_transposed_layers_are_equivariant_up_to_rounding",
    "C92_the_order_of_C85_is_one_of_them",
    "C92_floating_point",
    "C92_one_result_refuted"
   ],
   "note": ""
  },
  {
   "property": "C93",
   "status": "proved",
   "theorems": [
    "C93_usual_layers",
    "C93_statistics_on_group_signals",
    "C93_statistics_on_grid_signals",
    "C93_samples_keep_their_values",
    "C93_networks_with_normalisation",
    "C93_order_of_positions_refuted"
   ],
   "note": ""
  },
  {
   "property": "C94",
   "status": "proved",
   "theorems": [
    "C94_error_of_average_pooling",
    "C94_average_pooling_is_equivariant_up_to_rounding",
    "C94_default_strides",
    "C94_error_of_global_average_pooling",
    "C94_global_average_pooling_is_invariant_up_to_rounding",
    "C94_max_pooling_is_exact",
    "C94_exact_invariance_refuted"
   ],
   "note": ""
  },
  {
   "property": "C95",
   "status": "proved",
   "theorems": [
    "C95_default_arguments_refuted",
    "C95_group_axis_of_grid_signals",
    "C95_empty_name",
    "C95_unlisted_groups"
   ],
   "note": ""
  },
  {
   "property": "C96",
   "status": "proved",
   "theorems": [
    "C96_two_layers_are_one",
    "C96_the_layer_exists",
    "C96_nonlinearity_refuted",
    "C96_same_padding_refuted"
   ],
   "note": ""
  },
  {
   "property": "C97",
   "status": "proved",
   "theorems": [
    "C97_two_poolings_are_one",
    "C97_the_layer_exists",
    "C97_maximum_forgets_repeats",
    "C97_gaps_refuted",
    "C97_overlapping_means_refuted"
   ],
   "note": ""
  },
  {
   "property": "C98",
   "status": "proved",
   "theorems": [
    "C98_strides_subsample",
    "C98_the_layer_exists",
    "C98_pooling_strides_subsample"
   ],
   "note": ""
  },
  {
   "property": "C99",
   "status": "proved",
   "theorems": [
    "C99_convolutions",
    "C99_pooling",
    "C99_global_pooling",
    "C99_action",
    "C99_models",
    "C99_layers_called_one_after_the_other"
   ],
   "note": ""
  },
  {
   "property": "C100",
   "status": "proved",
   "theorems": [
    "C100_readme_table",
    "C100_docs_table",
    "C100_all_documented_names_refuted"
   ],
   "note": ""
  },
  {
   "property": "C101",
   "status": "proved",
   "theorems": [
    "C101_transposed",
    "C101_turned_weights"
   ],
   "note": ""
  },
  {
   "property": "C102",
   "status": "proved",
   "theorems": [
    "C102_convolutions",
    "C102_transposed_convolutions",
    "C102_pooling"
   ],
   "note": ""
  },
  {
   "property": "C103",
   "status": "proved",
   "theorems": [
    "C103_one_thread",
    "C103_one_at_a_time",
    "C103_overlapping_calls_damage_the_layer",
    "C103_one_element_is_safe",
    "C103_overlapping_calls_return_right_results_refuted"
   ],
   "note": ""
  },
  {
   "property": "C104",
   "status": "proved",
   "theorems": [
    "C104_turned_patches",
    "C104_turned_pooling_patches"
   ],
   "note": ""
  },
  {
   "property": "C105",
   "status": "proved",
   "theorems": [
    "C105_one_convolution_of_every_transformed_signal",
    "C105_transposed",
    "C105_transposed_kernel"
   ],
   "note": ""
  },
  {
   "property": "C106",
   "status": "proved",
   "theorems": [
    "C106_output_shape",
    "C106_other_channels",
    "C106_the_default",
    "C106_values",
    "C106_regular_output_padding",
    "C106_successful_calls_change_nothing",
    "C106_what_a_failing_call_leaves",
    "C106_compute_output_shape",
    "C106_when_the_announced_shape_is_right",
    "C106_every_output_padding_refuted"
   ],
   "note": ""
  },
  {
   "property": "C107",
   "status": "proved",
   "theorems": [
    "C107_pooling_over_all_transformed_signals"
   ],
   "note": ""
  },
  {
   "property": "C108",
   "status": "proved",
   "theorems": [
    "C108_exactly_when_layers_commute",
    "C108_reversed_axes",
    "C108_when_there_is_one"
   ],
   "note": ""
  },
  {
   "property": "C109",
   "status": "proved",
   "theorems": [
    "C109_convolutions",
    "C109_pooling"
   ],
   "note": ""
  },
  {
   "property": "C110",
   "status": "proved",
   "theorems": [
    "C110_pooling",
    "C110_commuting_calls",
    "C110_slices",
    "C110_convolutions"
   ],
   "note": ""
  },
  {
   "property": "C111",
   "status": "proved",
   "theorems": [
    "C111_signals_off_the_domain",
    "C111_first_call",
    "C111_a_number_means_both_fit",
    "C111_fits_or_raises",
    "C111_unknown_acting_group",
    "C111_second_call"
   ],
   "note": ""
  },
  {
   "property": "C112",
   "status": "proved",
   "theorems": [
    "C112_pooling",
    "C112_longer_group_axis",
    "C112_other_group_axis_raises",
    "C112_no_group_axis",
    "C112_input_spec"
   ],
   "note": ""
  }
 ]
}