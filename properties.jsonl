{"id": "C01", "title": "Every library group really is a group", "statement": "For each of the eleven groups in group_dict, the composition table is closed, associative, has element 0 as two-sided identity, and inverses[i] is a two-sided inverse of i. In addition the table is the multiplication table of the spatial symmetries that the group's elements perform.", "quantifier": "all groups in group_dict and all triples of their elements", "why_tests_cant": "The tests only check one diagonal of the table; associativity over all triples and the tie to the geometric transformations is never tested.", "anchors": ["groco/groups/wallpaper_groups.py:P4M,P4,P2MM,PMh,PMw,P2,P1", "groco/groups/space_groups.py:Oh,O,D4h,D4", "groco/groups/group.py:Group.__init__"]}
{"id": "C02", "title": "Groups derived from a parent are groups", "statement": "Constructing Group(name, order, parent=P) with a parent that is a group, where P.subgroup[name] is a duplicate-free list of `order` parent elements that starts with the identity and is closed under composition and inverse, succeeds and yields a group whose composition table is the parent's restricted to that list.", "quantifier": "all parent groups of any order, all sub-index lists satisfying the condition", "why_tests_cant": "There are infinitely many parent tables; the tests only construct three concrete children.", "anchors": ["groco/groups/group.py:Group._compute_composition,Group._compute_inverses,Group._external_to_internal_indices"]}
{"id": "C03", "title": "Inverses are computed correctly when they are omitted", "statement": "When a Group is constructed without inverses, group.inverses[i] composed with i (on either side) is the identity for every element i. For any square composition table, also one that is not a group, group.inverses[i] is the smallest c with composition[i][c] = 0, and the constructor raises IndexError when an element has none.", "quantifier": "all composition tables that are group tables with identity 0; the second part all square tables", "why_tests_cant": "Ranges over all group tables.", "anchors": ["groco/groups/group.py:Group._compute_inverses"]}
{"id": "C04", "title": "Meaning of Group.composition", "statement": "composition[r][c] is the index of the element 'first c, then r' (plain composition r o c). The class docstring instead says 'composing the inverse of the rth element with the cth element'.", "quantifier": "all groups in group_dict and all pairs of elements; all signals", "why_tests_cant": "The meaning of the table is the relation between the table and the action on every signal.", "anchors": ["groco/groups/group.py:Group", "groco/groups/wallpaper_groups.py:P4M"]}
{"id": "C05", "title": "Group.action on a grid signal is a left group action", "statement": "Acting on a signal and then acting on each slice of the result is the same as acting once with the composed elements: slice h of action(slice g of action(s)) equals slice composition[h][g] of action(s), and slice 0 is s itself.", "quantifier": "all library groups, all element types, all signals of any rank and any spatial size the group accepts, all placements of spatial axes and of the new group axis", "why_tests_cant": "Infinitely many shapes, axis placements and signals; tests fix one 28x28x3 and one 4x4x4x3 tensor.", "anchors": ["groco/groups/group.py:Group.action,Group._action_on_grid", "groco/groups/wallpaper_groups.py:P4M_action", "groco/groups/space_groups.py:Oh_action"]}
{"id": "C06", "title": "What each element does to a signal", "statement": "Each slice of Group.action is the documented geometric transformation of the signal: index k of P4 is the rotation by k quarter turns; P4M is ordered e,R,R^2,R^3,F,RF,R^2F,R^3F; PMh/PMw flip height/width; P2 is the half turn; P2MM is e, flip width, flip height, half turn; Oh is every axis permutation combined with every set of flips, O exactly the orientation preserving ones, D4h exactly those that fix the third axis and D4 exactly those that do both. Every slice only rearranges values.", "quantifier": "all library groups, all elements, all signals, ranks, sizes and axis placements", "why_tests_cant": "Quantifies over all signals and shapes.", "anchors": ["groco/groups/wallpaper_groups.py:P4M_action,P4_action,P2MM_action,PMh_action,PMw_action,P2_action,P1_action", "groco/groups/space_groups.py:Oh_action,Oh_parameters"]}
{"id": "C07", "title": "Distinct elements act differently", "statement": "The listed order of a group is its true order: for any two different elements of a library group there is a signal on a 2x2 (2x2x2) grid that they send to different signals, and the orders are 1,2,2,2,4,4,8 and 48,24,16,8.", "quantifier": "all pairs of distinct elements of all library groups", "why_tests_cant": "No test compares the actions of distinct elements.", "anchors": ["groco/groups/wallpaper_groups.py:wallpaper_group_dict", "groco/groups/space_groups.py:space_group_dict", "README.md"]}
{"id": "C08", "title": "Shape of Group.action on a grid signal", "statement": "action on a grid signal inserts exactly one axis, at new_group_axis, of size len(subgroup[acting_group]); all other sizes are unchanged.", "quantifier": "all library groups, acting subgroups, ranks, axis placements and accepted spatial shapes", "why_tests_cant": "Infinitely many shapes and axis placements.", "anchors": ["groco/groups/group.py:Group.action,Group._action_on_grid"]}
{"id": "C09", "title": "Which spatial shapes Group.action accepts", "statement": "For every library group except D4h and D4, Group.action on a signal over the grid accepts exactly the spatial shapes in which all axes exchanged by some element of the group have equal size, whichever subgroup is chosen to act, and raises on all others. D4h and D4 accept only cubes, although their elements never exchange depth with height or width: the README's cuboid (depth different from height and width) is rejected.", "quantifier": "all library groups, all acting subgroups, all tensors, axis positions and spatial shapes", "why_tests_cant": "Infinitely many shapes; tests only use squares and cubes.", "anchors": ["groco/groups/wallpaper_groups.py:P4M_action,P4_action", "groco/groups/space_groups.py:Oh_action", "groco/groups/group.py:Group._compute_action", "README.md"]}
{"id": "C10", "title": "Group.action on a signal on the group", "statement": "For a signal on the group, entry (g, h) of the result is the spatial action of g on the slice of the signal at g^-1 h; consequently the action is a left action: acting with g and then with h equals acting with composition[h][g], and element 0 acts trivially.", "quantifier": "all library groups, element types, signals, ranks, sizes, axis placements", "why_tests_cant": "Infinitely many signals and shapes.", "anchors": ["groco/groups/group.py:Group._action_on_group,Group._composition_flat_indices,Group.upsample"]}
{"id": "C11", "title": "Acting with the subgroup object equals acting with the group restricted to the subgroup", "statement": "For every subgroup name H of a library group G and every signal on H that G.action(signal, acting_group=H, domain_group=H) accepts, group_dict[H].action(signal) returns the same. G accepts every signal whose spatial sides are equal; on other signals G can raise although group_dict[H].action returns (P4M and PMw on a 1x3 image).", "quantifier": "all library groups, subgroups, signals on the subgroup, shapes and axes", "why_tests_cant": "Infinitely many signals and shapes.", "anchors": ["groco/groups/group.py:Group.action,Group._action_on_group", "groco/groups/wallpaper_groups.py:wallpaper_group_dict", "groco/groups/space_groups.py:space_group_dict"]}
{"id": "C12", "title": "Subgroup rows of the grid action", "statement": "On every grid signal that G.action accepts (in particular if its spatial sides are equal), group_dict[H].action(signal) equals taking the rows subgroup[H] of G.action(signal); and G.action(signal, acting_group=H) is the same thing.", "quantifier": "all library groups, subgroups, grid signals, shapes and axes", "why_tests_cant": "Infinitely many signals and shapes.", "anchors": ["groco/groups/group.py:Group._action_on_grid,Group._compute_action"]}
{"id": "C13", "title": "Upsampling from a subgroup", "statement": "upsample extends a signal on a subgroup by zeros: restricting the result to the subgroup gives the signal back, every other entry is zero, the shape only changes in the group axis, and upsampling commutes with acting by the subgroup.", "quantifier": "all library groups, subgroups, signals, shapes, axes", "why_tests_cant": "Infinitely many signals and shapes.", "anchors": ["groco/groups/group.py:Group.upsample"]}
{"id": "C14", "title": "Subgroup tables", "statement": "Every list in group.subgroup is duplicate free, contains the identity first, is closed under g^-1 h, has the order of the named group, and the named group's own composition table, own subgroup lists and own elements agree with the parent's through this list (so nested subgroup names mean the same elements).", "quantifier": "all library groups, all their subgroup names, all pairs of elements", "why_tests_cant": "The agreement of nested tables is not tested and must hold for all pairs.", "anchors": ["groco/groups/wallpaper_groups.py:wallpaper_group_dict", "groco/groups/space_groups.py:space_group_dict", "groco/groups/group.py:Group._compute_subgroup"]}
{"id": "C15", "title": "Coset representatives factor the group uniquely", "statement": "For every subgroup name H, every element of G is h o c for exactly one h in subgroup[H] and exactly one c in cosets[H].", "quantifier": "all library groups, all subgroup names, all elements", "why_tests_cant": "Unique factorisation for every element; the tests compare sorted lists only for the given instances.", "anchors": ["groco/groups/wallpaper_groups.py:wallpaper_group_dict", "groco/groups/space_groups.py:space_group_dict", "groco/groups/group.py:Group._compute_cosets"]}
{"id": "C16", "title": "Equivariant padding is correct and minimal", "statement": "With padding 'valid_equiv' or 'same_equiv', the padding layer pads each spatial axis so that (input + total padding - kernel) is a multiple of the stride and the total padding is even, it adds the least amount with that property, and building raises exactly when some axis has no such amount: ValueError for 'valid_equiv', but AttributeError for 'same_equiv' (the code that formats the error message calls a method that does not exist), so the documented ValueError is not always what one gets.", "quantifier": "all input sizes, kernel sizes, strides (>= 1) and any number of axes", "why_tests_cant": "Infinitely many sizes, kernels and strides.", "anchors": ["groco/layers/padding.py:EquivariantPadding.build,EquivariantPadding.compute_extra_padding,EquivariantPadding.padding_parity_error,EquivariantPadding.configuration_string"]}
{"id": "C17", "title": "Plain 'same' and 'valid' are checked", "statement": "With padding 'same' or 'valid', building succeeds without adding padding if no padding is needed for equivariance, raises ValueError if some is needed, and with allow_non_equivariance=True it always succeeds and never pads.", "quantifier": "all input sizes, kernel sizes, strides, number of axes", "why_tests_cant": "Infinitely many sizes.", "anchors": ["groco/layers/padding.py:EquivariantPadding.build,EquivariantPadding.non_equivariant_error"]}
{"id": "C18", "title": "Extra and built-in padding together are symmetric", "statement": "After the padding layer has padded the input, the backend's own 'same' (or 'valid') padding of the padded input is what the layer assumed it to be, and the extra plus built-in amounts before and after each axis are equal and sampling ends exactly at the end of the padded axis.", "quantifier": "all sizes, kernels, strides for which building succeeds", "why_tests_cant": "Infinitely many sizes; a mismatch only shows for particular residues.", "anchors": ["groco/layers/padding.py:EquivariantPadding.split_padding,EquivariantPadding.compute_built_in_padding"]}
{"id": "C19", "title": "Padding only adds a border of zeros", "statement": "Calling the padding layer keeps every input value in place (shifted by the leading pad), fills everything else with zero, and does not change the batch and channel axes, for both data formats.", "quantifier": "all tensors, sizes, data formats", "why_tests_cant": "Infinitely many tensors and sizes.", "anchors": ["groco/layers/padding.py:EquivariantPadding.call,EquivariantPadding.split_padding"]}
{"id": "C20", "title": "In the format channels_first the wrong axes are padded", "statement": "A convolution or pooling layer with data_format='channels_first' computes its equivariance padding from the number of (merged) channels and all but the last spatial size, and applies it to the channel axis and all but the last spatial axis. If the number of channels would need padding, every call of a convolution layer raises a ValueError. Otherwise the spatial axes are padded differently, and there are such convolution and pooling layers that are built without complaint and do not commute with the rotation by 180 degrees.", "quantifier": "all convolution and pooling layers for library groups with data_format='channels_first', all padding options, strides, kernel sizes, channel numbers and inputs", "why_tests_cant": "Depends on channel count and sizes; the only test uses stride 1 where no padding is needed.", "anchors": ["groco/layers/group_transforms.py:GroupTransforms.__init__", "groco/layers/padding.py:EquivariantPadding.build"]}
{"id": "C21", "title": "Lifting convolutions are equivariant", "statement": "For a GroupConv2D/GroupConv3D layer on a grid signal with dilation 1 and strides that are equal along the axes that the group exchanges (C43 and C44 are about other layers), that builds without allow_non_equivariance: applying the layer to the signal transformed by any element of the acting group gives the output transformed (as a signal on the group) by the same element.", "quantifier": "all groups, acting subgroups, sizes, kernels, biases, activations, strides as described, batch sizes, channel counts and input values, over exact arithmetic", "why_tests_cant": "Infinitely many layers and inputs; the tests sample one seed, one size and tolerate 1e-4.", "anchors": ["groco/layers/conv2d.py:GroupConv2D", "groco/layers/conv3d.py:GroupConv3D", "groco/layers/group_transforms.py:GroupTransforms"]}
{"id": "C22", "title": "Group convolutions are equivariant", "statement": "The same, under the same conditions on strides and dilation, for a group-valued input: layer(u.x) = u.layer(x) for every u in the acting subgroup, where the input is a signal on the group and the output a signal on the subgroup.", "quantifier": "all groups, subgroups, sizes, kernels, biases, activations, strides as described, batch sizes, channels and values, over exact arithmetic", "why_tests_cant": "Infinitely many layers and inputs.", "anchors": ["groco/layers/conv2d.py:GroupConv2D.call", "groco/layers/conv3d.py:GroupConv3D.call", "groco/layers/group_transforms.py:GroupTransforms.prepare_call,GroupTransforms._compute_transformed_kernel_indices"]}
{"id": "C23", "title": "A slice of a group convolution is an ordinary convolution with the transformed kernel", "statement": "The output of a group convolution at acting element h is the backend's ordinary convolution of the (group-merged, padded) input with the kernel transformed by h, plus the shared bias; it raises exactly when the backend does. The first slice uses the kernel itself, and with a trivial subgroup (in particular group P1) the layer is the ordinary convolution with an axis of size 1 inserted. For transposed layers the same holds of the kernel whose stored numbers are read in the order pixel, channel, filter (they are stored as pixel, filter, channel), up to the kernel entries described in C28.", "quantifier": "all layers and inputs", "why_tests_cant": "Infinitely many layers and inputs.", "anchors": ["groco/layers/group_transforms.py:GroupTransforms.transform_kernel,GroupTransforms.restore_group_axis,GroupTransforms.repeat_bias"]}
{"id": "C24", "title": "The kernel is transformed by the group action", "statement": "transform_kernel(kernel) has the same entries as the group action applied to the kernel itself (split into group and channel axes): precomputing the action on indices and gathering is the same as acting on values. In transposed layers this holds of the kernel whose stored numbers are read in the order pixel, channel, filter, for all entries the kernel on the subgroup has a value for (see C28 for the others).", "quantifier": "all kernels of all sizes and channel counts, all groups and subgroups, transposed or not", "why_tests_cant": "Infinitely many kernels.", "anchors": ["groco/layers/group_transforms.py:GroupTransforms.transform_kernel,GroupTransforms._compute_transformed_kernel_indices", "groco/utils/tensor_manips.py:get_index_tensor"]}
{"id": "C25", "title": "The bias is shared over the group", "statement": "repeat_bias returns len(acting_group) consecutive copies of the bias, so each filter has the same bias at every group element.", "quantifier": "all biases, groups and subgroups", "why_tests_cant": "All bias lengths and values.", "anchors": ["groco/layers/group_transforms.py:GroupTransforms.repeat_bias,GroupTransforms._compute_repeated_bias_indices"]}
{"id": "C26", "title": "Transposed convolutions are equivariant where the README says so", "statement": "GroupConv2DTranspose/GroupConv3DTranspose are equivariant, and calling them succeeds, with stride 1 when padding is valid or the kernel size is odd, and with stride equal to kernel_size and valid padding, as the README says. The README's claim for stride 1 without a condition on kernel size and padding is false: with stride 1, kernel size 2 and 'same_equiv' padding a layer builds and is not equivariant.", "quantifier": "all groups, subgroups, sizes, kernels, biases, inputs with those strides, equal along the axes that the group exchanges, and dilation 1", "why_tests_cant": "Infinitely many layers and inputs.", "anchors": ["groco/layers/conv2d_transpose.py:GroupConv2DTranspose", "groco/layers/conv3d_transpose.py:GroupConv3DTranspose", "README.md"]}
{"id": "C27", "title": "Transposed convolutions with any stride", "statement": "A transposed group convolution that builds is equivariant when along every axis the stride is at most the kernel size and, with 'same' or 'same_equiv' padding, kernel size minus stride is even (for 'same_equiv' also the padding that it computes for the input size). Outside these cases a layer can build without allow_non_equivariance and still not be equivariant (kernel 3, stride 2, 'same_equiv'; kernel 1, stride 2, 'valid_equiv'), so building is not a guarantee for transposed layers.", "quantifier": "all strides that are equal along the axes that the group exchanges, kernel sizes, input sizes, paddings; dilation 1", "why_tests_cant": "Depends on residues of sizes; the tests exclude the failing strides.", "anchors": ["groco/layers/conv2d_transpose.py:GroupConv2DTranspose", "groco/layers/padding.py:EquivariantPadding.compute_built_in_padding"]}
{"id": "C28", "title": "Supergroup upsampling in transposed layers fills with the kernel's first entry", "statement": "In a transposed layer from a subgroup to the group, the transformed kernel has the kernel's first (flat) entry wherever the kernel on the subgroup has no value seen from the acting element. It is therefore the extension by zero that one expects exactly when that entry is zero or the subgroup is the whole group; otherwise the expectation is false.", "quantifier": "all kernels, groups and subgroups", "why_tests_cant": "The gathered value depends on the kernel; tests never look at it.", "anchors": ["groco/layers/group_transforms.py:GroupTransforms._compute_transformed_kernel_indices", "groco/groups/group.py:Group._action_on_group", "README.md"]}
{"id": "C29", "title": "Output shape of a convolution layer", "statement": "A channels_last group convolution layer maps (batch, *spatial[, |domain|], channels) to (batch, *spatial', |acting|, filters), with spatial' the convolution arithmetic of the padded input (ceil(n/s) for 'same' options, (n-k)//s+1 for 'valid' ones; n*s or n*s+max(k-s,0) for transposed layers); it raises exactly when the padded input is smaller than the kernel and the option is a 'valid' one, transposed layers never.", "quantifier": "all channels_last layers and input shapes with positive sizes", "why_tests_cant": "Infinitely many shapes.", "anchors": ["groco/layers/group_transforms.py:GroupTransforms.merge_group_axis_and_pad,GroupTransforms.restore_group_axis", "groco/layers/conv2d.py:GroupConv2D"]}
{"id": "C30", "title": "What compute_output_shape returns", "statement": "compute_output_shape returns the convolution arithmetic of the unpadded sizes the layer was built for, with |group| on the group axis; in channels_first the same sizes with the filters after the batch axis. For the options 'same' and 'valid' and the whole group as subgroup (or a transposed layer) this is, in both formats, the shape of what the layer returns on inputs of that size. It is not in general: a proper subgroup or extra padding refute the agreement. Before the layer is built, compute_output_shape and call raise AttributeError (also with groups, output_padding, activations such as softmax, and while tracing).", "quantifier": "all layers, both data formats and all input shapes", "why_tests_cant": "Depends on subgroup, stride and sizes; never tested.", "anchors": ["groco/layers/conv2d.py:GroupConv2D.compute_output_shape", "groco/layers/group_transforms.py:GroupTransforms.correct_output_shape"]}
{"id": "C31", "title": "Subgroup pooling pools every group element exactly once", "statement": "In a pooling layer with subgroup H, for every signal on which the layer computes, subgroup pooling returns a signal with one group entry per element of H; the value at entry h combines exactly the values at (element h of H) o c for c in cosets[H], and every element of the group is (element h) o c for exactly one pair (h, c).", "quantifier": "all library groups, subgroups, numbers of spatial axes, signals, both pool types", "why_tests_cant": "All signals and shapes.", "anchors": ["groco/layers/group_transforms.py:GroupTransforms.build_pool,GroupTransforms.subgroup_pooling"]}
{"id": "C32", "title": "Group pooling layers are equivariant", "statement": "A GroupMaxPooling/GroupAveragePooling layer that is given strides and builds without allow_non_equivariance (or with an *_equiv padding) commutes with the action of its subgroup, for every input size congruent modulo the strides to the one it was built for, provided pool size and strides agree along axes the group exchanges and, for same_equiv, the backend adds an even number of rows per axis. Without the last two conditions the layer is accepted but the claim fails (witnesses).", "quantifier": "all groups, subgroups, pool sizes, strides, paddings, input sizes and values, over exact arithmetic", "why_tests_cant": "Infinitely many layers and inputs; residues and signs of values matter.", "anchors": ["groco/layers/pooling.py:GroupPooling"]}
{"id": "C33", "title": "Pooling with default strides", "statement": "A pooling layer built without strides pools with strides equal to the pool size; built without allow_non_equivariance, with a pool size that is equal along the axes that the group exchanges, it commutes with the action of its subgroup if the pool size divides the input size (valid options), or is odd with an even number of rows added by the backend (same options). For other sizes (pool 2 on size 5, valid or valid_equiv) the layer builds without complaint and is not equivariant.", "quantifier": "all pool sizes and input sizes", "why_tests_cant": "Only fails for sizes that are not multiples of the pool size.", "anchors": ["groco/layers/pooling.py:GroupPooling.__init__", "groco/layers/padding.py:EquivariantPadding.__init__"]}
{"id": "C34", "title": "Global group pooling is invariant", "statement": "A global group pooling layer returns the same result for a signal on a subgroup K and for the signal transformed by any element of a subgroup H contained in K; the result is the pooling over positions of the pooling over the group axis, with the documented shape, for both data formats and both values of keepdims. The layer compares the name of the format exactly, Keras does not: with 'channels_first' in another letter case nothing is raised, and the layer takes the last spatial axis for the group axis, so it returns what it returns for 'channels_first' and the signal with these two axes exchanged.", "quantifier": "all library groups, elements, signals, sizes, keepdims and data formats, over exact arithmetic (what is computed: also signals with any number of spatial axes and any group axis)", "why_tests_cant": "Never tested (only shapes are); all signals.", "anchors": ["groco/layers/pooling.py:GlobalGroupPooling"]}
{"id": "C35", "title": "What calls do to the weights of a layer", "statement": "After any sequence of successful calls the layer's kernel, bias and filters are what they were before, and every call returns what the original layer returns. A call that raises leaves the layer unchanged or with the transformed weights in place of the weights: the expectation that failing calls are harmless is false, a later call can silently return a different result.", "quantifier": "all histories of calls, including calls that raise", "why_tests_cant": "All histories; the failing ones leave the trace.", "anchors": ["groco/utils/misc.py:backup_and_restore", "groco/layers/conv2d.py:GroupConv2D.call"]}
{"id": "C36", "title": "Index tensor identity", "statement": "For t of any shape, take(reshape(t,-1), get_index_tensor(t)) == t.", "quantifier": "all tensors of any shape", "why_tests_cant": "All shapes and values.", "anchors": ["groco/utils/tensor_manips.py:get_index_tensor"]}
{"id": "C37", "title": "Merging and splitting axes are inverse and lose nothing", "statement": "merge_axes(t, m, k) followed by the split at the same place restores the axes; restoring the group axis after merging it is the identity (both data formats); neither changes, drops or duplicates values.", "quantifier": "all tensors, axes, sizes", "why_tests_cant": "All shapes and axes.", "anchors": ["groco/utils/tensor_manips.py:merge_axes,split_axes,move_axis_to_left_of,merge_shapes,split_shapes", "groco/layers/group_transforms.py:GroupTransforms.restore_group_axis"]}
{"id": "C38", "title": "check_equivariance decides equivariance on the given signal", "statement": "For a layer that treats the samples of a batch independently, check_equivariance returns 0 if and only if layer(g.s) = g.layer(s) for every g in the acting subgroup (given that the layer and the two actions compute and the output is not empty). For the convolution and pooling layers that are equivariant by C21, C22, C32 it returns 0 for all weights and signals. For any layer, if it returns a number then the output for the batch of all transformed signals has one sample per transformed sample, and its sizes agree with those of the transformed output except for axes of size one. The check is not meaningful for layers that mix the samples of a batch: such a layer can commute and get a positive result, or get 0 without commuting.", "quantifier": "all layers, library groups, acting/domain/target subgroups, axis positions, signals", "why_tests_cant": "All layers and signals.", "anchors": ["groco/utils/equivariance.py:check_equivariance,_act_on_batched_transform"]}
{"id": "C39", "title": "Stacks of equivariant layers are equivariant", "statement": "A Sequential model of group convolution and pooling layers, with or without a lifting convolution in front, each of which is built for the group that the layer before it produces and satisfies the conditions of C21, C22, C32 or C33, commutes with every element of the last subgroup; followed by global pooling it returns, and returns the same for an input and its transforms by the last subgroup.", "quantifier": "all finite stacks of such layers, all weights, all inputs of any shape, all groups of the library", "why_tests_cant": "Stacks of any depth, all weights and inputs.", "anchors": ["groco/layers/conv2d.py:GroupConv2D", "groco/layers/pooling.py:GroupPooling,GlobalGroupPooling", "tests/test_model.py"]}
{"id": "C40", "title": "Layer configurations cannot be read back", "statement": "get_config() of every convolution and pooling layer, in every state, raises AttributeError (EquivariantPadding.get_config reads attributes kernel_size and padding that the object does not have), so the intended property 'get_config returns the constructor arguments' never holds.", "quantifier": "all layers in all states", "why_tests_cant": "Never tested; must hold for every configuration.", "anchors": ["groco/layers/padding.py:EquivariantPadding.get_config", "groco/layers/group_transforms.py:GroupTransforms.get_config"]}
{"id": "C41", "title": "Subgroup names accepted by layers", "statement": "A layer's subgroup argument: '' means the same as the name of the group itself; a name that is no name of a library group is rejected with KeyError by the constructor; None (documented as the default meaning the whole group) is rejected with KeyError; groups outside the library are rejected with the subgroup '' (see C80 for named subgroups); acceptance of the other arguments does not depend on the subgroup; and a layer can be built only if the group lists the subgroup, except transposed layers on grid signals, which accept every library name.", "quantifier": "all groups, all strings, all other arguments, convolution and pooling layers", "why_tests_cant": "All strings.", "anchors": ["groco/layers/group_transforms.py:GroupTransforms.__init__", "groco/groups/group.py:Group.parse_subgroup", "docs/source/layers/convolutional.rst"]}
{"id": "C42", "title": "Unknown batch size", "statement": "With a statically unknown batch size the reshaping helpers give the same tensor as with the known batch size, if the axes that are merged or split are not the batch axis and none of the other axes is empty.", "quantifier": "all tensors, all axes but the first, all batch sizes including 0", "why_tests_cant": "All shapes.", "anchors": ["groco/utils/tensor_manips.py:format_batch_dim,merge_axes,split_axes"]}
{"id": "C43", "title": "Anisotropic strides", "statement": "For the groups that never exchange axes (P1, P2, PMw, PMh, P2MM) group convolutions that build are equivariant for any strides per axis. For the other groups equivariance is guaranteed when the strides are equal; with different strides a layer can build without allow_non_equivariance and not be equivariant (P4, kernel 2, strides (1,3), 'valid_equiv', 3x3 input).", "quantifier": "all stride tuples", "why_tests_cant": "All stride tuples.", "anchors": ["groco/layers/padding.py:EquivariantPadding.build", "groco/layers/conv2d.py:GroupConv2D"]}
{"id": "C44", "title": "Dilated kernels", "statement": "With dilation_rate > 1 group convolutions that build are equivariant for 'valid' and 'valid_equiv' padding, and for 'same' and 'same_equiv' padding when along every axis the kernel size or the dilation rate is odd. With even kernel size, even dilation rate and 'same_equiv' padding a layer can build without allow_non_equivariance and not be equivariant (the padding computation ignores the dilation).", "quantifier": "all dilation rates and strides that are equal along the axes that the group exchanges, kernel sizes, paddings", "why_tests_cant": "Depends on parity of the kernel.", "anchors": ["groco/layers/padding.py:EquivariantPadding.compute_built_in_padding", "groco/layers/conv2d.py:GroupConv2D"]}
{"id": "C45", "title": "Inputs of other sizes than the layer was built for", "statement": "A layer built for one spatial size is equivariant on every other size that differs by a multiple of the stride along every axis (or raises). On other sizes it can return without error and not be equivariant (built for 3x3, stride 2, called on 4x4).", "quantifier": "all pairs of sizes; strides equal along the axes that the group exchanges, dilation 1", "why_tests_cant": "All pairs of sizes.", "anchors": ["groco/layers/padding.py:EquivariantPadding.build,EquivariantPadding.call"]}
{"id": "C46", "title": "Without extra padding both data formats compute the same function", "statement": "When neither layer adds equivariance padding, a layer in the format 'channels_first' with the same weights returns, for every input, the rearrangement of what the 'channels_last' layer returns for the rearranged input, and raises the same error when that one raises. Layers with strides 1 (for same_equiv: and odd kernel sizes) and layers with the plain padding options and allow_non_equivariance=True add no padding, and can be built in the format channels_first whenever they can be built in the format channels_last.", "quantifier": "all (transposed) convolution layers for library groups without extra padding, all weights and inputs; data_format given in lower case", "why_tests_cant": "All layer configurations and all inputs; the only test of channels_first checks one convolution.", "anchors": ["groco/layers/group_transforms.py:GroupTransforms"]}
{"id": "C47", "title": "padding option names", "statement": "The padding argument is accepted by the padding layer exactly for the four documented option names in any letter case, and rejected with TypeError otherwise. The option handed to the backend is the documented name without '_equiv' for the lower case names; for an '_equiv' name in another letter case the suffix is not removed and constructing a convolution layer raises.", "quantifier": "all strings", "why_tests_cant": "All strings.", "anchors": ["groco/layers/padding.py:EquivariantPadding.format_padding_option,EquivariantPadding.__init__"]}
{"id": "C48", "title": "Each slice of a pooling layer's output is an ordinary pooling", "statement": "For every entry h of the group axis, the slice of a pooling layer's output at h is the backend's ordinary pooling, with the layer's pool size, strides and padding option, of the slice at h of the signal pooled to the subgroup and padded by the layer's padding layer.", "quantifier": "all library groups, subgroups, numbers of spatial axes, pool sizes, strides, paddings, inputs on which the layer computes", "why_tests_cant": "All layers and inputs; tests only check shapes and equivariance for a few.", "anchors": ["groco/layers/pooling.py:GroupPooling.call", "groco/layers/group_transforms.py:GroupTransforms.subgroup_pooling,GroupTransforms.merge_group_axis_and_pad,GroupTransforms.restore_group_axis"]}
{"id": "C49", "title": "Layers treat the samples of a batch independently", "statement": "For every built convolution, transposed convolution, pooling or global pooling layer (for pooling layers: that returns for some input at all, which is in doubt only for option names that end in _EQUIV in another letter case): whether a call succeeds does not depend on the batch size or the values, and each sample of the output is exactly what the layer returns for that sample alone.", "quantifier": "all layers, weights, batch sizes (including 0), inputs of any spatial size; pooling in any dimension, convolutions in the dimension of their group", "why_tests_cant": "All batches and all values; a leak between samples shows only for particular batch compositions.", "anchors": ["groco/layers/conv2d.py:GroupConv2D.call", "groco/layers/conv2d_transpose.py:GroupConv2DTranspose.call", "groco/layers/pooling.py:GroupPooling.call,GlobalGroupPooling.call"]}
{"id": "C50", "title": "Subgroups of subgroups are listed", "statement": "If H is listed in G.subgroup at positions idx and U is listed in the library group H at positions j, then U is listed in G.subgroup, at the positions idx[j]; every listed subgroup is itself a group of the library, of the same dimension and of as many elements as are listed.", "quantifier": "all groups of the library, all their listed subgroups and the subgroups listed for those", "why_tests_cant": "The tests only look at one level of subgroups at a time; a chain of layers relies on every level numbering the same elements alike.", "anchors": ["groco/groups/wallpaper_groups.py", "groco/groups/space_groups.py", "groco/groups/group.py:Group"]}
{"id": "C51", "title": "Pooling computes the same function in both data formats", "statement": "When neither layer adds equivariance padding, a GroupMaxPooling/GroupAveragePooling layer in the format 'channels_first' returns, for every input, the rearrangement of what the 'channels_last' layer returns for the rearranged input, and raises the same error when that one raises. Pooling layers without strides or with strides 1 (for same and same_equiv: and odd pool sizes), and those with plain padding options and allow_non_equivariance=True, add no padding and can be built in the format channels_first whenever they can be built in the format channels_last. A GlobalGroupMaxPooling/GlobalGroupAveragePooling layer always does the same in both formats, with and without keepdims.", "quantifier": "all pooling layers for library groups without extra padding, all global pooling layers, all inputs, any number of spatial axes; data_format given in lower case", "why_tests_cant": "All layer configurations and all inputs; no test covers pooling in the format channels_first.", "anchors": ["groco/layers/pooling.py:GroupPooling", "groco/layers/pooling.py:GlobalGroupPooling", "groco/layers/group_transforms.py:GroupTransforms.subgroup_pooling"]}
{"id": "C52", "title": "Layers in the format channels_first are equivariant when they add no padding", "statement": "Convolutions, transposed convolutions and pooling layers with data_format='channels_first' commute with the action of the group on signals in that format (spatial axes 2.., group axis last), under the same conditions on sizes, strides, dilations and padding options as the layers in the format channels_last, provided that no equivariance padding is added in either format. In particular every such convolution with strides 1 and dilation 1 that builds without allow_non_equivariance (for same_equiv: with an odd kernel size) is equivariant.", "quantifier": "all layers for library groups that add no equivariance padding, all subgroups, input sizes, weights and values, over exact arithmetic", "why_tests_cant": "All layer configurations, sizes and values; C20 shows that the proviso cannot be dropped.", "anchors": ["groco/layers/group_transforms.py:GroupTransforms", "groco/groups/group.py:Group.action"]}
{"id": "C53", "title": "Exactly when a convolution layer can be constructed and built", "statement": "For every library group and every choice of arguments with data_format 'channels_last' (the model's precondition for this claim), constructing a group convolution (ordinary or transposed) succeeds exactly when: the subgroup is '' or a key of group_dict; filters is positive; the padding argument is 'same' or 'valid' in any letter case, optionally followed by '_equiv' in lower case; kernel size, strides and dilation are positive integers or tuples of one positive integer per spatial axis; and strides above 1 are not combined with dilation above 1. Building an ordinary layer on an input shape with known spatial sizes then succeeds exactly when: the subgroup is one of the group's listed subgroups; a group signal has one entry on the group axis per element of the group; the padding works out (nothing is asked of plain padding with allow_non_equivariance, plain padding otherwise needs every axis to be symmetric without extra padding, and the _equiv options need some amount of extra padding to exist on every axis); with 'valid' padding the dilated kernel is at most the input size plus one stride; and, for the groups that exchange axes, the kernel has equal sizes on all axes. Nothing else - no value of weights, batch size or channel count - makes it fail.", "quantifier": "all library groups, subgroup names, kernel sizes, strides, dilations, padding strings, flags, filters, weights, spatial sizes, known or unknown batch sizes", "why_tests_cant": "An 'exactly when' over unboundedly many argument combinations: tests try a handful of accepted combinations and never the boundary between accepted and refused ones.", "anchors": ["groco/layers/group_transforms.py:28-73", "groco/layers/group_transforms.py:133-215", "groco/layers/padding.py:43-64", "groco/layers/padding.py:66-133", "groco/layers/conv2d.py:42-76"]}
{"id": "C54", "title": "A layer with a subgroup is the restriction of the layer for the whole group", "statement": "Take a group convolution with subgroup H and the same layer with the whole group, built on the same input shape with the same initial kernel and bias. On every input the first returns exactly the entries of the second's output, along the group axis, at the indices group.subgroup[H], in that order (and raises exactly when the second raises). The layer for the whole group can be built whenever the one for H can.", "quantifier": "all library groups and listed subgroups, all argument combinations for which the layers build, all weights, grid and group signals of any size", "why_tests_cant": "The kernel indices of the two layers are computed separately, and the tests never compare layers for different subgroups; agreement must hold for every weight tensor and input size.", "anchors": ["groco/layers/group_transforms.py:95-119", "groco/layers/group_transforms.py:169-215"]}
{"id": "C55", "title": "Layers commute with translations of the grid", "statement": "(a) Group convolutions, any padding option: if one input is another translated by a whole number t of strides along each axis (zeros coming in, only zeros leaving), its output is the other's output translated by t pixels, at every pixel where both outputs are defined. (b) Without padding ('valid'), the output on a part of the image that starts at a multiple t of the strides is the part of the output that starts at t, of any size for which the call succeeds. (c) Transposed group convolutions: translating the input by t pixels translates the output by t strides. (d) Group pooling with 'valid' padding satisfies (b), including the pooling over cosets.", "quantifier": "all library groups, subgroups, kernel sizes, strides, dilations, padding options, translations, image sizes, weights and values; pooling in any dimension", "why_tests_cant": "The tests only act with the point group; translations, the other half of the wallpaper and space groups, are never tested, and the claim quantifies over all translations and image sizes.", "anchors": ["groco/layers/conv2d.py:59-65", "groco/layers/conv2d_transpose.py:40-84", "groco/layers/group_transforms.py:75-89", "groco/layers/pooling.py:22-74"]}
{"id": "C56", "title": "What negative axes do in Group.action", "statement": "For a grid signal, Group.action of a wallpaper group accepts negative spatial axes (with a non-negative new_group_axis) or a negative new_group_axis (with non-negative spatial axes) and returns exactly what the same axes counted from the front give, provided the new group axis lies to the left of both spatial axes. When the new axis lies further to the right, or when both kinds of axes are negative, the call silently acts on the axes one further to the right (so new_group_axis=-1 transforms width and channels instead of height and width). The space groups accept a negative new_group_axis everywhere and raise on a negative first spatial axis. For signals on the group a negative new_group_axis is always equivalent, negative spatial axes are equivalent when the group axis lies to their left, and a negative group_axis is not accepted.", "quantifier": "all library groups, signals of every shape and element type, all positions of the new axis, all spatial axes, every acting subgroup argument", "why_tests_cant": "The repository never calls the action with a negative axis, and the wrong axes are silently transformed, so only a statement over all ranks and axis positions separates the supported calls from the unsupported ones.", "anchors": ["groco/groups/wallpaper_groups.py:6-100", "groco/groups/space_groups.py:12-30", "groco/groups/group.py:48-135"]}
{"id": "C57", "title": "Exactly when pooling layers can be constructed and built", "statement": "A group pooling layer (max or average, 1-D, 2-D, 3-D) is constructed exactly when the subgroup is '' or the name of a library group, the padding option is one of same, valid, same_equiv, valid_equiv in any letter case, and pool size and strides are positive per axis. The constructed layer builds for an input shape exactly when the group lists the subgroup, the group axis (if the input has one) has the order of the group, and for every axis the padding option works out: with same/valid either non-equivariance is allowed or no extra padding is needed, with same_equiv/valid_equiv some extra padding makes it work. Here the strides are taken to be 1 when they are not given.", "quantifier": "all library groups, numbers of spatial axes, subgroup names, padding options, pool sizes, strides, and input shapes with any batch size, spatial sizes, group axis and channels", "why_tests_cant": "The tests build a few layers on a few shapes; the exact boundary between accepted and refused arguments and shapes is a statement about all of them.", "anchors": ["groco/layers/pooling.py:27-69", "groco/layers/group_transforms.py:37-73", "groco/layers/group_transforms.py:133-167", "groco/layers/padding.py:43-66"]}
{"id": "C58", "title": "Pooling layers given a signal without group axis", "statement": "A group pooling layer can be built for a signal without group axis. If the signal has fewer channels than the group has elements, every call raises an exception of the backend. Otherwise no error is raised and the result is exactly that of the layer applied to the signal on the group whose value at the group element number g is the channel number g (one channel); the remaining channels are ignored.", "quantifier": "all library groups, subgroups, numbers of spatial axes, pool types and functions, pool sizes, strides, padding options, sizes, numbers of channels and values", "why_tests_cant": "The tests never pool a signal without group axis; the claim that the layer silently misreads the channels holds for all shapes, channels and groups.", "anchors": ["groco/layers/pooling.py:60-69", "groco/layers/group_transforms.py:105-167"]}
{"id": "C59", "title": "Layers that treat all positions alike commute with the group", "statement": "Any layer that computes the channels of its output at a position (batch entry, grid point, group element) from the channels of one or two input signals at that position only, by the same function everywhere - activations, Dense, inference-time batch normalisation, Add, Multiply, Concatenate along the channels - commutes with Group.action on signals on a group and on grid signals, and never breaks the transformation: whatever shapes the action accepts for the inputs it accepts for the output. A function that also depends on the group element (one scale per element) does not.", "quantifier": "for all library groups, listed subgroups, functions of the channels, signals of any size and batch", "why_tests_cant": "The function of the channels is arbitrary; a test can only try particular activations on particular signals.", "anchors": ["groco/groups/group.py:48-135", "README.md"]}
{"id": "C60", "title": "Networks with branches are equivariant", "statement": "A network made of group convolutions, pooling layers, layers that treat all positions alike (C59), layers that normalise by order-independent statistics (C93) and branches that are merged by such a layer (residual connections, concatenations), starting with a group signal or with lifting convolutions, in which each group layer is built for the signals it gets and satisfies the conditions of C21, C22, C32 or C33, commutes with every element of the group of its output; followed by global pooling it returns, and returns the same for an input and its transforms.", "quantifier": "for all networks of any depth and branching, library groups and subgroups, weights, activations, signals", "why_tests_cant": "Architectures of arbitrary depth and branching; a test can only compose particular layers.", "anchors": ["groco/layers/group_transforms.py:28-236", "groco/layers/conv2d.py:59-76", "groco/layers/pooling.py:60-129", "README.md"]}
{"id": "C61", "title": "Exactly when a transposed convolution layer can be built", "statement": "Building a constructed transposed group convolution (data_format 'channels_last') on an input shape with known spatial sizes succeeds exactly when: a signal on a group has one entry on the group axis per element of the layer's subgroup, which the group must list (for a signal on the grid the subgroup is not looked at); with a '_equiv' option some extra padding of each axis makes the total even and the size plus the expected padding minus the kernel size a multiple of the stride, with 'same' or 'valid' no extra padding is needed or allow_non_equivariance is set, where the expected padding is that of an ordinary convolution for 'same' and max(stride - kernel, 0) for 'valid'; and the kernel is a square or cube if the group exchanges axes. A kernel larger than the input is not rejected. In particular, with strides equal to the kernel size, 'valid' padding and allow_non_equivariance=False, a layer on the grid can be built exactly for inputs whose sizes are multiples of the stride, although the transposed convolution would be equivariant for all sizes.", "quantifier": "all library groups, subgroups, sizes, strides, kernel sizes, options, input shapes, initial weights", "why_tests_cant": "Infinitely many combinations of sizes, strides and options; a test shows one that builds or one that does not.", "anchors": ["groco/layers/conv2d_transpose.py:GroupConv2DTranspose", "groco/layers/conv3d_transpose.py:GroupConv3DTranspose", "groco/layers/padding.py:EquivariantPadding.build", "groco/layers/group_transforms.py:GroupTransforms.build"]}
{"id": "C62", "title": "Encoder-decoder networks with transposed layers are equivariant under the symmetries common to their groups", "statement": "A network of lifting convolutions, group convolutions, pooling layers, transposed convolutions (from a subgroup back to the group, or from the grid), position-wise layers, layers with statistics (C93) and branches such as skip connections, each of the kinds that the other claims call equivariant and built for the signals that it gets, commutes with every symmetry that belongs to all the groups that its convolution and pooling layers (and transposed layers on the grid) lead to: if it returns z for x and gx is x transformed by the element with that symmetry, as computed by Group.action, it returns z transformed by that symmetry for gx. Transposed layers from a subgroup do not restrict the symmetries further. With GlobalGroupPooling at the end the outputs for x and gx are equal. Symmetries outside one of the groups are in general not respected (example: a U-net from P4 to P2 and back commutes with half turns and not with quarter turns).", "quantifier": "all networks of that kind of any depth and branching, all library groups and listed subgroups, all inputs and weights, all symmetries", "why_tests_cant": "Infinitely many networks and inputs.", "anchors": ["groco/layers/conv2d_transpose.py:GroupConv2DTranspose", "groco/layers/conv2d.py:GroupConv2D", "groco/layers/pooling.py:GroupPooling", "groco/groups/group.py:Group.action", "README.md"]}
{"id": "C63", "title": "Building layers for unknown spatial sizes", "statement": "If a spatial entry of the shape a convolution, transposed convolution or pooling layer is built for is None, building raises (a ValueError for signals on the grid; for signals on the group possibly the error about the group axis), unless padding is 'same' or 'valid' and allow_non_equivariance=True.  In that case a convolution can be built exactly when it can be built for some completion of the known sizes; the layer (convolution or pooling) gives the same result on every input as the layer built for any other sizes; and compute_output_shape reports None exactly for the axes whose size is unknown and the usual size for the others.", "quantifier": "every library group and subgroup, every convolution/transposed/pooling argument with data_format='channels_last', every partly known shape, all weights, all inputs; pooling in any dimension", "why_tests_cant": "a test can only try a few shapes, and the equality of the functions computed by two layers is over all inputs and weights", "anchors": ["groco/layers/padding.py:74-95", "groco/layers/group_transforms.py:133-155", "groco/layers/conv2d.py:67-86", "groco/layers/pooling.py:66-69"]}
{"id": "C64", "title": "Calls traced with unknown sizes", "statement": "While a call is traced, sizes of the input may be unknown (None), and the group axis is merged and restored with reshapes to the static shape in which None becomes -1.  If the size of at most one axis among the batch and the spatial axes is unknown, and no axis is empty, then convolution, transposed convolution and pooling layers return exactly what they return when all sizes are known.  If two of these sizes are unknown (for example the batch size and the height), every call raises, even for layers that could be built for such inputs.", "quantifier": "every library group and subgroup, every convolution/transposed/pooling argument with data_format='channels_last', every (partly known) build shape, all weights, all inputs, every set of unknown axes; pooling in any dimension", "why_tests_cant": "tests call layers on concrete arrays or with an unknown batch size only; the claim covers every choice of unknown axes, layer and input", "anchors": ["groco/utils/tensor_manips.py:41-128", "groco/layers/group_transforms.py:75-119", "groco/layers/conv2d.py:59-65", "groco/layers/pooling.py:60-64"]}
{"id": "C65", "title": "Groups used in another number of dimensions", "statement": "Wallpaper groups other than P1 act along exactly two spatial axes: with any other number Group.action raises, and a 3D (transposed) group convolution for such a group is constructed without complaint and raises in build, for every input shape.  Space groups read only the first of the spatial axes and act on it and the next two, whatever the other axes given are.  So a 2D group convolution for a space group builds only if its first three kernel axes have equal sizes: on grid signals kernel height, kernel width and number of input channels, on group signals kernel height, width and the order of the group.", "quantifier": "every library group, every signal and axes of the action; every argument of (transposed) group convolutions, every input shape, all initial weights, any number of spatial axes", "why_tests_cant": "tests use each group with layers of its own dimension; the claim covers every combination of group, layer and input shape", "anchors": ["groco/groups/wallpaper_groups.py:6-99", "groco/groups/space_groups.py:12-40", "groco/layers/group_transforms.py:121-160", "groco/layers/conv3d.py:1-92"]}
{"id": "C66", "title": "Layers for the trivial group are ordinary convolutions in any dimension", "statement": "A GroupConv layer with group='P1', in any number of spatial dimensions (GroupConv3D included, although P1 is listed among the two-dimensional groups), computes the ordinary Keras convolution of its padded input with the layer's kernel, strides, dilation, bias and activation, with an axis of size 1 inserted before the channels. A GroupConvTranspose layer with group='P1' likewise computes the ordinary transposed convolution, but with the numbers of its kernel of shape (k, filters, channels) read in the order of shape (k, channels, filters): with several filters and several channels the output is not that of a Keras layer holding the same kernel. Such a layer builds exactly when its subgroup is '' or 'P1' (only needed on group signals for transposed layers), the group axis of a group signal has size 1, and the padding and Keras accept the sizes; the kernel may have different sizes along the axes.", "quantifier": "All dimensions, kernel sizes, strides, dilations, paddings, filters, channels, weights, activations, static input shapes and inputs; grid and group signals.", "why_tests_cant": "The repository's tests never use P1 in a 3D layer and never compare a transposed layer with the Keras layer it wraps; a mistake in merging a group axis of size 1 or in the order of the weights would show for some shapes only.", "anchors": ["groco/groups/wallpaper_groups.py:98-100", "groco/layers/group_transforms.py:60-230", "groco/layers/conv3d.py:1-92", "groco/layers/conv3d_transpose.py:1-90"]}
{"id": "C67", "title": "Keras' groups argument splits channels across group elements", "statement": "GroupConv layers pass Keras' argument groups=N on to Keras. With N=1 nothing changes. Otherwise the layer builds exactly when N is positive, divides the number of filters and the number of channels, and the layer without the argument builds for a Nth part of the channels. Its output at element h and filter r is then the output at (h, r) of that smaller layer with the same weights, applied to block number (h*filters + r) // (|subgroup| * filters/N) of the input channels (of the merged group and channel axes, for group signals): different elements of one filter see different input channels. Hence a layer that lifts signals from the grid, with N > 1 and a subgroup of more than one element, is equivariant on signals of some size only if its output is the same for all of them; nothing raises. A call that returns leaves the layer as it was.", "quantifier": "All groups of the library, subgroups, N, kernel sizes, strides, dilations, paddings, filters, channels, weights, activations, static input shapes and inputs; the description and the build conditions for grid and group signals, the converse of equivariance for grid signals.", "why_tests_cant": "The repository's tests never pass groups; a test of one layer would show one failure of equivariance but not that all weights other than trivial ones fail, nor which channels an output depends on.", "anchors": ["groco/layers/conv2d.py:42-76", "groco/layers/conv3d.py:42-76", "groco/layers/group_transforms.py:60-167"]}
{"id": "C68", "title": "Activations such as softmax act on all group elements together", "statement": "Keras applies a layer's activation before the group axis is restored. An activation F that is a function of all numbers along the last axis (such as softmax) therefore receives, at each position, the outputs of all elements of the subgroup and all filters as one vector, the filters of the first element first; the output at (element h, filter r) is entry h*filters + r of F of that vector of outputs of the layer without activation. With F = map f this is the entrywise activation f. If F treats its arguments alike (rearranged arguments give rearranged values), the layer commutes with the elements of any subgroup wherever the layer without activation does, on grid and group signals and for transposed layers; for other F (such as a cumulative sum) it need not. A call that returns leaves the layer as it was.", "quantifier": "All groups of the library, subgroups, layers (convolution and transposed, grid and group signals), kernel sizes, strides, paddings, filters, weights, all activations F of vectors, all inputs.", "why_tests_cant": "The repository's tests only use entrywise activations; that softmax is normalised over all elements and filters together, and that this is what keeps it equivariant, is not visible in any test.", "anchors": ["groco/layers/conv2d.py:42-65", "groco/layers/conv2d_transpose.py:40-64", "groco/layers/group_transforms.py:100-120", "groco/utils/misc.py:1-16"]}
{"id": "C69", "title": "GroupConv layers are exactly the equivariant convolutions", "statement": "Take an ordinary convolution kernel W with |H| * filters filters (|H| the number of elements of the layer's subgroup H), whose output is read as a signal with a group axis of size |H|. (a) The ordinary convolution with W commutes with the action of H on all signals of the size of the kernel if and only if the layer's transform_kernel maps the first `filters` filters of W (those of the identity) to W. (b) If it commutes, then a GroupConv layer with subgroup H whose initial kernel is these filters returns, for every input, what Keras' convolution with W (and the bias repeated for every element) returns on the padded input: every equivariant convolution is a GroupConv layer, whatever padding option, strides, dilation, bias and activation. (c) If two layers with the same arguments and an injective activation return the same for all inputs, they have the same kernel and bias: no weight is redundant.", "quantifier": "All groups of the library and their subgroups, grid and group signals, kernel sizes, filters, strides, dilations, paddings, activations, kernels W, input sizes and batch sizes; arithmetic with 0 and 1 satisfying the laws for neutral elements (for the direction from transform_kernel in (a) also u+(v+w) = v+(u+w), for (c) also cancellation).", "why_tests_cant": "Tests check that given layers are equivariant; that the layers reach every equivariant kernel, and that different kernels give different layers, are statements about all kernels and all inputs.", "anchors": ["groco/layers/group_transforms.py:GroupTransforms.transform_kernel,GroupTransforms._compute_transformed_kernel_indices,GroupTransforms.repeat_bias,GroupTransforms.restore_group_axis", "groco/layers/conv2d.py:42-65"]}
{"id": "C70", "title": "The assertions of the project's tests hold for all signals, weights and sizes", "statement": "(a) For every group G of the library and every subgroup H it lists, every GroupConv layer with kernel size k, any number of filters, odd stride and padding 'same_equiv' or 'valid_equiv' builds on a cube of size n >= k with or without group axis, returns a signal with group axis |H| and the given number of filters (of the size n of the input for 'same_equiv', stride 1 and odd k), and check_equivariance returns 0. (b) The same for transposed layers from H to G with odd stride s <= k, where 'same_equiv' needs odd k and n divisible by s, and then gives size n*s. (c) Pooling layers with pool size k dividing n, strides k and 'same_equiv' or 'valid_equiv', or default strides and 'valid_equiv', build, return size n/k and pass. (d) The model of test_model.py (convolution, pooling, convolution, pooling, transposed convolution on the whole group, pool size q, odd kernels) maps size n*q*q to size n and passes check_equivariance.", "quantifier": "All groups of the library, listed subgroups, batch sizes, sizes, channels, filters, kernel sizes, odd strides, weights, biases, pointwise activations and signals; commutative addition, order-independent pooling and a metric that vanishes only on equal values.", "why_tests_cant": "The tests themselves are run with one size (3, 8 or 28), one seed and kernel size 3; the transposed tests leave out strides above 3 because they were observed to fail (TODO in conv_test_base.py), and test_lift_equiv checks only the last group because the check stands after the loop.", "anchors": ["tests/conv_test_base.py:TestConvBase", "tests/test_pooling.py:TestGroupPoolingBase", "tests/test_model.py:TestModel", "groco/layers/conv2d.py:42-65", "groco/layers/pooling.py:GroupPooling", "groco/utils/equivariance.py:check_equivariance"]}
{"id": "C71", "title": "test_subgroups does not test closure", "statement": "The check in test_subgroups (test_wallpaper.py and test_space.py) returns True for every list of elements of a library group that contains the identity, whether or not it is a subgroup: it asks that every listed element is a product g^-1 h of listed ones, which holds with g the identity. P4 with the elements [0, 1] passes. With any(axis=0) in place of any(axis=1) it would return True exactly for the lists that are closed under g^-1 h.", "quantifier": "All groups of the library and all lists of their elements.", "why_tests_cant": "This is a statement about a test: all its runs on the library pass, with the right tables as with wrong ones.", "anchors": ["tests/test_wallpaper.py:22-43", "tests/test_space.py:28-49", "groco/groups/group.py:Group"]}
{"id": "C72", "title": "Pooling over the group in two steps", "statement": "A pooling layer with pool size 1 that pools from a group G to a subgroup H, followed by a pooling layer for the group H that pools to K, computes what the single layer for G with subgroup K and the options of the second layer computes; each of the two raises or returns exactly when the other does. This holds for maximum and for exact mean, and for all G, H and K of the library except (P4M, P2MM, PMw), (P4M, P2MM, PMh) and (Oh, D4h, D4). There the coset representatives of the tables do not match, and there are signals for which the two results differ.", "quantifier": "All groups and subgroups of the library, dimensions, sizes, batch sizes, channels, pool sizes, strides, padding options and signals; all pooling functions with the laws of maximum and mean; for the exceptions there is a signal.", "why_tests_cant": "No test pools twice; the tables of representatives are tested one by one, and each of them is right.", "anchors": ["groco/layers/pooling.py:60-70", "groco/layers/group_transforms.py:GroupTransforms.subgroup_pooling", "groco/groups/wallpaper_groups.py:126-188", "groco/groups/space_groups.py:2469"]}
{"id": "C73", "title": "Pooling over tiles does not change the global pooling", "statement": "A pooling layer whose strides equal its pool size, with padding 'valid' or 'valid_equiv', for sizes that are multiples of the pool size and with any subgroup, can be put before a global pooling layer of the same kind or left out: the outputs of the global layer are equal, with and without keepdims. This holds for maximum and for exact mean.", "quantifier": "All groups and subgroups of the library, dimensions, sizes, batch sizes, channels, pool sizes and signals; all pooling functions with the laws of maximum and mean.", "why_tests_cant": "It needs every value of the signal to be in exactly one window and one coset, for all sizes and all subgroups.", "anchors": ["groco/layers/pooling.py:60-70", "groco/layers/pooling.py:101-125", "groco/layers/group_transforms.py:GroupTransforms.subgroup_pooling"]}
{"id": "C74", "title": "What a failed build leaves behind", "statement": "When the build of a layer raises, Keras leaves it unbuilt and calls build again at the next call; but GroupTransforms has been changed. In channels_last, after a failed build for a signal on the group every later build for a signal on the group raises KeyError, AssertionError or IndexError, also for the right shape; a later build for a signal on the grid may succeed, but then every call of the layer raises. After a failed build for a signal on the grid every build for a signal on the group raises KeyError, in both formats. In all other cases, for instance in channels_first after builds for signals on the group, the failed builds leave no trace: the next build raises the same exception as on a fresh layer or gives a layer with the same outputs. In channels_last, calling build once more on a layer built for signals on the group raises, and after that every call raises. The same two statements on failed builds hold for the pooling layers.", "quantifier": "All layers, convolutional, transposed and pooling, all dimensions and options, all sequences of failed builds, all shapes and signals.", "why_tests_cant": "The tests never go on with a layer after an exception, and they build each layer once.", "anchors": ["groco/layers/group_transforms.py:133-155", "groco/layers/padding.py:74-95", "groco/layers/conv2d.py:67-76", "groco/layers/pooling.py:66-69"]}
{"id": "C75", "title": "Models made with keras.Sequential or the functional API", "statement": "Keras builds each layer of such a model with the shape that the layer before it announces: what compute_output_shape returns for a convolution, the traced shape for a pooling layer. A convolution announces the shape of its output exactly when its own padding changes nothing and (unless it is transposed) its subgroup has as many elements as the group. Hence making a model in which a layer for the subgroup follows a convolution with a smaller subgroup raises AssertionError, although the same layers can be called one after the other. A model in which every layer gets signals of the shape it was built for commutes with the transformations of the last group; this is so if every convolution covers its whole group and either has padding valid or same, or has strides 1 (and odd kernels for same_equiv). If a convolution pads, the model can be made and called but need not be equivariant, although the layers called outside a model are: two P4 convolutions of size 3 and strides 3 on 7x7 images. Layers of such a list that are called one after the other on a tensor, without a model, commute with the transformations whatever their padding (they are built for what they get); and in the cases where the layers of a model are built for the signals that they get, calling the model is calling the layers one after the other.", "quantifier": "All groups, subgroups, dimensions, options, weights, signals, group-valued or not, and models of any number of layers in channels_last; the equivariance for convolutions without dilation and pooling layers with explicit strides and another padding than same_equiv; the last sentence is a witness.", "why_tests_cant": "The one model in the tests has no subgroups and no convolution that pads.", "anchors": ["groco/layers/conv2d.py:83-86", "groco/layers/conv2d_transpose.py:81-84", "groco/layers/conv3d.py:83-86", "groco/layers/group_transforms.py:133-155", "groco/layers/group_transforms.py:217-222", "groco/layers/pooling.py:60-69", "tests/test_model.py:25-48"]}
{"id": "C76", "title": "The networks of the example notebook are invariant", "statement": "The two networks of notebooks/example_MNIST.ipynb (without the Dense layer that follows) get made, return for every batch of images, and their features do not change when the image is transformed: by any element of the group for the network with one group throughout, and by the elements of the last subgroup (positions 0 and 4 of P4M in the notebook) for the network that pools onto smaller subgroups. When the transformed versions of one image are merged into a batch, as the notebook does, the corresponding rows of the features equal those of the image. The step behind this: Keras' own GlobalMaxPooling3D, which treats the group axis as a spatial axis, is invariant on signals on the group, and so is any network of a lifting convolution, further layers and that pooling if every convolution covers its whole group and adds no padding.", "quantifier": "All groups of the library in place of P4M, all subgroups of subgroups in place of P2MM and PMw, all even image sizes from 14 on in place of 28, all numbers of channels and filters, weights, activations, batch sizes and images; all global pooling functions that do not depend on the order.", "why_tests_cant": "The notebook looks at one image and one set of weights, with tolerances; the tests contain no network that ends with GlobalMaxPooling3D or changes its group.", "anchors": ["notebooks/example_MNIST.ipynb:cells 10-28 and 46-51", "groco/layers/conv2d.py:35-86", "groco/layers/pooling.py:29-69", "groco/layers/group_transforms.py:133-222"]}
{"id": "C77", "title": "The number of parameters", "statement": "A layer has (kernel pixels) x (input channels) x (filters) weights, and one bias per filter. A layer for signals on the grid has as many as the ordinary convolution with the same arguments, or as the layer for any other group; the subgroup makes no difference. For signals on a group the input channels count once per group element (for transposed layers: per element of the subgroup), so the README's 'number of parameters stays the same' does not hold there: with equal arguments a P4 layer has four times the weights of a P1 layer.", "quantifier": "All groups, subgroups, dimensions, kernel sizes, options, numbers of channels and filters, for convolutions and transposed convolutions; the last clause is a witness.", "why_tests_cant": "No test looks at the number of weights.", "anchors": ["README.md:62", "README.md:87", "groco/layers/conv2d.py:67-76", "groco/layers/conv2d_transpose.py:60-80", "groco/layers/group_transforms.py:133-222"]}
{"id": "C78", "title": "Layers are linear", "statement": "Without bias and activation the output for s1*x1 + s2*x2 is s1*(output for x1) + s2*(output for x2), and the three calls raise together. Without activation the output is linear in the weights: with kernel s1*K1 + s2*K2 and bias s1*B1 + s2*B2 assigned to the layer it is the same combination of the outputs for (K1, B1) and (K2, B2).", "quantifier": "All convolutions and transposed convolutions, groups, subgroups, dimensions, options, all signals, also of other sizes than the layer was built for, all weights and scalars, over any commutative ring.", "why_tests_cant": "No test adds or scales signals or weights.", "anchors": ["groco/layers/conv2d.py:67-82", "groco/layers/conv2d_transpose.py:60-80", "groco/layers/group_transforms.py:157-215"]}
{"id": "C79", "title": "Transposed layers are the adjoints of convolutions", "statement": "Take a convolution from signals with c channels to signals with o channels, both on the whole group, and a transposed convolution with the same kernel size, strides, dilation and padding from o channels to c, neither with extra padding, bias or activation. The transposed layer has as many weights, and there is an order of the weights of the convolution such that the transposed layer with them is the adjoint: the inner product of the output for x with y equals the inner product of x with the output of the transposed layer for y. (Keeping the order of the weights does not work, see C66.)", "quantifier": "All groups, dimensions, kernel sizes, strides, dilations, paddings, weights, all batch sizes and all signals x and y of sizes that correspond, over any commutative ring.", "why_tests_cant": "No test relates the two kinds of layers.", "anchors": ["README.md:94-100", "groco/layers/conv2d_transpose.py:60-80", "groco/layers/conv3d_transpose.py:60-80", "groco/layers/conv2d.py:67-82", "groco/layers/group_transforms.py:157-215"]}
{"id": "C80", "title": "Layers work for user-made Group objects, if the subgroup's name is a library name", "statement": "A Group object that is not in group_dict can be passed as `group`. If its tables (composition, inverses, subgroup, cosets) and its action belong to a list of distinct signed permutations of the axes that starts with the identity, then GroupConv2D/3D, their transposed versions, GroupMaxPooling/GroupAveragePooling and global pooling built for it are equivariant (or invariant) under the same conditions as for library groups (transposed layers: under those of the README, C26). However the layers look the subgroup's name up in group_dict even then: with the default subgroup '' and a group name that is not in the library, with any other unknown subgroup name, or with None, the constructor raises KeyError.", "quantifier": "all Group objects whose attributes describe a finite group of signed axis permutations in any dimension, all arguments, weights, sizes and signals; the raise holds for every Group object", "why_tests_cant": "The repository's tests only use the groups of the library; the set of possible user-made groups, subgroup dictionaries and action callables is infinite.", "anchors": ["groco/layers/group_transforms.py:45-47", "groco/groups/group.py:28-46", "groco/layers/conv2d.py:60-97", "groco/layers/pooling.py:40-69"]}
{"id": "C81", "title": "Groups derived from a parent inherit everything the layers need", "statement": "If a Group object describes a finite group of signed axis permutations (as in C80) and its subgroup dictionary lists a subgroup under a nonempty name, then Group(name, order, parent=P) with nothing else given succeeds and again describes a group: its elements are the listed elements in the listed order, its composition and inverse tables, its subgroup dictionary (the listed subgroups that lie inside it, with positions renumbered), its coset representatives and its action all belong to these elements. Every group of the library is described in this sense.", "quantifier": "all described parents (including derived ones, so any chain of parents), all listed subgroup names", "why_tests_cant": "Tests compare the library's derived groups; that the derivation is right for every parent and every subgroup list is a statement about all groups.", "anchors": ["groco/groups/group.py:165-248"]}
{"id": "C82", "title": "Exactly when a group can be constructed, from a parent or without one", "statement": "Group(name, order, parent=P), with nothing else given and P a correctly described group, succeeds exactly if P.subgroup has an entry `name` and `order` is the number of listed elements. An unknown name raises KeyError, an order that is too small raises KeyError (also order 0), an order that is too large raises IndexError. Without a parent the constructor raises AttributeError if the composition table is missing, ValueError if its rows have different lengths, IndexError if the inverses are missing and the table is smaller than `order` or an element has no inverse in it, AttributeError if subgroups or cosets are missing, and otherwise succeeds with what was given; if the action is missing, Group.action on a grid signal raises AttributeError only when it is called. The table need not be that of a group.", "quantifier": "all described parents, all nonempty names, all orders; without a parent all arguments", "why_tests_cant": "The tests only construct the library's groups, all with the right order; the claim covers every parent, name and order.", "anchors": ["groco/groups/group.py:28-46", "groco/groups/group.py:173-248"]}
{"id": "C83", "title": "Which subgroups of the square's symmetry group are implemented", "statement": "The README says that P4M and all its subgroups have been implemented. P4M has exactly ten subgroups; P4M.subgroup lists seven of them under the names of library groups. The two generated by a reflection in a diagonal, and the one that contains both of them and the half turn, are missing. Among library groups every inclusion is listed, with one exception: P2 lies in P2MM and P2MM.subgroup does not list it, so a P2MM layer with subgroup P2 can be constructed but not built.", "quantifier": "all sets of elements of P4M; all pairs of library groups", "why_tests_cant": "Showing that nothing is missing (or what is) needs all subsets of the group, not the listed ones.", "anchors": ["README.md:55", "groco/groups/wallpaper_groups.py:1-199", "groco/layers/group_transforms.py:45-50"]}
{"id": "C84", "title": "Every equivariant transposed convolution is a layer", "statement": "If an ordinary transposed convolution with n=|group| filters per output channel commutes with the action of the group on signals of a single pixel, then it is what a transposed group convolution computes: the one whose kernel, read in the order pixel, channel, filter, consists of the filters for the identity; for all inputs, paddings, strides, dilations, activations and biases. The commuting kernels are exactly those the layer makes of its own kernels. No weight is redundant: two transposed layers with the same arguments that return the same on all inputs have the same kernel and bias (if the activation is injective). For signals on a proper subgroup the layers do not give all equivariant transposed convolutions.", "quantifier": "every library group, both signal types, all kernels, inputs and layer arguments, any arithmetic with neutral elements (commuting additions for the converse)", "why_tests_cant": "the claim is about all kernels and all linear maps, not only about those the layer happens to produce", "anchors": ["groco/layers/group_transforms.py:GroupTransforms.transform_kernel,GroupTransforms._compute_transformed_kernel_indices", "groco/layers/conv2d_transpose.py:GroupConv2DTranspose", "groco/layers/conv3d_transpose.py:GroupConv3DTranspose"]}
{"id": "C85", "title": "Equivariance in floating point arithmetic", "statement": "In arithmetic where each sum and product is rounded with relative error at most u (binary32: u = 2^-24), a layer raises exactly when it does in exact arithmetic, and each entry of its output differs from the exact one by at most r = ((1+u)^(n+2) - 1)(nXW + B), where n is the number of products per output entry, X, W and B bound the entries of the input, kernel and bias, and the activation does not expand distances. Hence a convolution or transposed convolution that is equivariant in exact arithmetic commutes with the subgroup up to 2r per entry, and check_equivariance, itself computed with rounding, returns a number between 0 and (1+u)2r. Rounding to nearest even with p digits satisfies the assumption with u = 2^-p. Exact equivariance does not hold in binary32.", "quantifier": "all library groups, subgroups, layer arguments, weights, inputs and roundings with relative error u (no overflow or underflow)", "why_tests_cant": "The tests compare with a fixed tolerance on random inputs; how large a deviation rounding can cause, over all inputs and weights, needs an error analysis.", "anchors": ["groco/utils/equivariance.py:check_equivariance", "groco/layers/group_transforms.py:GroupTransforms.transform_kernel", "groco/layers/conv2d.py:42-65", "tests/conv_test_base.py:TestConvBase"]}
{"id": "C86", "title": "Exactly when 'same' and 'valid' layers are equivariant, and whether the check is exact", "statement": "A convolution or transposed convolution with plain 'same' or 'valid' padding commutes with its subgroup for all weights and inputs of a given size exactly when the elements of the subgroup preserve the set of triples (output pixel, kernel pixel, input pixel) that the layer multiplies, and the output sizes agree along exchanged axes. With strides and dilation rates that agree along exchanged axes (and if the layer reads any input pixel at all, which is only in doubt with dilation) this is a condition on the axes that some element reverses: for a convolution the sampling, with the zeros added by the backend, is symmetric about the centre; for a transposed convolution the stride is at most the (dilated) kernel size and, with 'same', their difference is even. For convolutions without dilation and subgroups that reverse every axis (all but P1, PMw and PMh) the check that allow_non_equivariance=True switches off is therefore exact: the layer is refused exactly when some weights make it not equivariant. It refuses equivariant layers when the subgroup leaves an axis in place, when the layer is dilated, and when it is transposed.", "quantifier": "all library groups, subgroups, kernel sizes, strides, dilation rates, input sizes, channels, filters and activations that tell some product from 0, in exact arithmetic", "why_tests_cant": "The tests check that some layers are equivariant and that others raise; that no refused layer would have been equivariant, and no accepted one is not, is a statement about all weights, sizes and groups.", "anchors": ["groco/layers/padding.py:EquivariantPadding.build", "groco/layers/padding.py:74-117", "groco/layers/group_transforms.py:GroupTransforms.build", "groco/layers/conv2d.py:67-76", "groco/layers/conv2d_transpose.py:65-74"]}
{"id": "C87", "title": "Transformed examples give the same weight gradients, and the input gradients are equivariant", "statement": "Take a convolution or transposed convolution layer, an input x and the gradient dy of a loss with respect to the layer's output. Backpropagation through the layer (with any function in the place of the activation's derivative) has exactly one result: a gradient for the kernel, for the bias and for the input. If the layer without its activation commutes with the elements of a subgroup, then for every such element the transformed example (transformed x, transformed dy) has the same gradients for the kernel and the bias as (x, dy), and its gradient for the input is the transformed one. This holds in particular for all layers that are equivariant by C21, C22, C26, C27, C43, C44 and C45. For a layer that is not equivariant the weight gradients of a rotated example can differ.", "quantifier": "all library groups, subgroups, sizes, strides, dilation rates, channels, filters, weights, batches, output gradients and activation derivatives, in exact arithmetic", "why_tests_cant": "The tests never differentiate a layer; sampled gradients in floating point agree only up to rounding, and the statement ranges over all weights, signals and loss gradients.", "anchors": ["groco/layers/conv2d.py:Conv2D.call", "groco/layers/conv2d_transpose.py", "groco/layers/group_transforms.py:GroupTransforms.prepare_call", "groco/layers/group_transforms.py:GroupTransforms.restore_group_axis", "groco/utils/misc.py:backup_and_restore"]}
{"id": "C88", "title": "Replacing training examples by transformed ones does not change the trained weights", "statement": "Take a network of group convolutions and transposed convolutions, the first for signals on the grid or on the group and all others for signals on the group, each equivariant without its activation. Let the gradient of the loss with respect to the output be equivariant. Then backpropagation for a transformed input gives the same gradients for all kernels and biases of all layers, and the transformed gradient for the input. So training with any optimiser (any function of state and gradients), on any sequence of examples, ends with the same weights if each example is replaced by a transformed one: rotating or reflecting examples is no augmentation for such a network. The condition on the loss holds for sums of any function of the outputs and for any function of the outputs summed over pixels and group elements; the condition on the layers holds for all layers of C21, C22, C27, C43 and C44 with the whole group as subgroup.", "quantifier": "all library groups, networks of any length, weights, optimisers, sequences of examples and losses as described, in exact arithmetic", "why_tests_cant": "The tests never train a network. Sampled training runs in floating point drift apart by rounding, and cover one optimiser and one loss; the statement is about all of them and about sequences of any length.", "anchors": ["groco/layers/conv2d.py:Conv2D.call", "groco/layers/conv2d_transpose.py", "groco/layers/group_transforms.py:GroupTransforms.prepare_call", "groco/layers/pooling.py:GlobalGroupPooling", "README.md"]}
{"id": "C89", "title": "Exactly when 'same' and 'valid' pooling layers are equivariant, and whether the check is exact", "statement": "A pooling layer with plain 'same' or 'valid' padding, whose pooling function does not depend on the order of its arguments and tells two values apart (maximum and mean do), commutes with its subgroup for all inputs of a given size exactly when the elements of the subgroup preserve which input pixel is in the window of which output pixel, and the output sizes agree along exchanged axes. With pool sizes and strides that agree along exchanged axes this is a condition on the axes that some element reverses: the windows are placed symmetrically about the centre, or every window covers the whole axis. For layers with given strides, subgroups that reverse every axis (all but P1, PMw and PMh) and, with 'same', no axis that every window covers as a whole, the check that allow_non_equivariance=True switches off is therefore exact: the layer is refused exactly when it is not equivariant. It refuses equivariant layers when the subgroup leaves an axis in place, when every window covers a whole axis, and when the strides are left to the default.", "quantifier": "all library groups, subgroups, pool types with the two properties, pool sizes, strides, input sizes, channels and batches, in exact arithmetic", "why_tests_cant": "The tests check that some pooling layers are equivariant. That all others fail for some input, and that the check accepts exactly the right ones, is a statement about every size and every signal.", "anchors": ["groco/layers/pooling.py:GroupPooling", "groco/layers/padding.py:74-117", "groco/layers/group_transforms.py:133-167"]}
{"id": "C90", "title": "Layers compute the group correlation of Cohen and Welling", "statement": "With positions measured from the centres of the images, a group convolution layer returns at output pixel P, subgroup element h and filter o the sum, over all input pixels I, group elements g and channels q, of x(I, g, q) * psi_o(h^-1 (I - s P), h^-1 g, q), followed by bias and activation: the group correlation of the paper by Cohen and Welling that the README refers to. Here psi is the layer's kernel read as a function of the position, with its values at the (dilated) kernel pixels and zero elsewhere, s the strides, and h^-1 acts on positions by the inverse signed permutation; for grid inputs there is no g. A single nonzero input entry therefore shows the filter, turned by h. Transposed layers return the sum of x(I, g, q) * psi_o(h^-1 (P - s I), h^-1 g, q), for signals on the grid and on the whole group. The formula does not need square images, also for groups with quarter turns. It holds for layers that build without allow_non_equivariance or have a *_equiv option (with 'same': odd kernel or odd dilation rate; images whose sizes agree with those at build modulo the strides; transposed: under the conditions of C27), and fails for some layers that allow_non_equivariance lets through.", "quantifier": "all library groups, subgroups, padding options, kernel sizes, strides, dilation rates, image sizes, channels, filters, batches, weights and inputs, in exact arithmetic", "why_tests_cant": "The tests compare outputs of transformed inputs with transformed outputs. A layer can pass them without computing the convolution of the paper; that every output entry of every layer is given by one formula is a statement about all sizes and all weights.", "anchors": ["groco/layers/conv2d.py:GroupConv2D.call", "groco/layers/conv2d_transpose.py:GroupConv2DTranspose", "groco/layers/group_transforms.py:GroupTransforms.transform_kernel,GroupTransforms._compute_transformed_kernel_indices", "groco/layers/padding.py:EquivariantPadding.build", "README.md:138"]}
{"id": "C91", "title": "Layers and actions do not depend on the kind of numbers", "statement": "For a map phi between two kinds of numbers that respects zero, sums and products, constructing, building and calling a convolution layer (any class, any arguments, any input) with weights mapped by phi on a signal mapped by phi gives the output mapped by phi, or the same exception, provided that phi commutes with the activation. The same holds for pooling and global pooling layers if phi respects zero and the maximum (or mean), and for Group.action of a library group, with any arguments, if phi respects zero. In particular relu, or any increasing function that keeps zero, can be moved through a max pooling layer. The condition on zero is needed: the zeros that the extra padding adds take part in the maximum, so max pooling does not commute with adding a constant.", "quantifier": "all entry types with zero, addition and multiplication, all maps between them, all arguments of the constructors (valid or not), input shapes, weights and signals", "why_tests_cant": "Tests use float32 tensors. Independence of the entries' type, including which exception is raised, is a statement about all types and all arguments.", "anchors": ["groco/layers/conv2d.py:GroupConv2D", "groco/layers/conv2d_transpose.py:GroupConv2DTranspose", "groco/layers/pooling.py:GroupPooling", "groco/layers/pooling.py:GlobalGroupPooling", "groco/groups/group.py:48-135", "groco/layers/padding.py:68-72"]}
{"id": "C92", "title": "Equivariance in floating point arithmetic whatever the order of the sums", "statement": "Suppose each entry of a layer's output is computed from the same products of signal entries and weights as in exact arithmetic, but the products and the bias may be added in any order and with any bracketing, with or without fused multiply-add, differently in every entry and every call, and every operation has a relative error of at most u that need not depend on its operands only. Then a result is possible exactly when the layer returns in exact arithmetic, and every possible result differs from the exact one by at most r = ((1+u)^(n+1) - 1)(nXW + B) per entry (n products per entry; X, W, B bound input, kernel and bias; the activation does not expand distances). Convolutions and transposed convolutions that are equivariant in exact arithmetic commute with the subgroup up to 2r: any result for the transformed signal is within 2r of the transform of any result for the signal. What C85 calculates is one of the possible results, if rounding twice is rounding once (true of rounding to nearest even) and the biases are rounded numbers. A single call can have several results.", "quantifier": "all library groups, subgroups, layer arguments, weights, inputs, error bounds u, orders of evaluation and errors of the single operations (no overflow or underflow)", "why_tests_cant": "The order in which a backend adds the products depends on the device, the sizes and the number of threads; a test sees one order per run.", "anchors": ["groco/utils/equivariance.py:check_equivariance", "groco/layers/group_transforms.py:GroupTransforms.transform_kernel", "groco/layers/conv2d.py:42-65", "tests/conv_test_base.py:TestConvBase"]}
{"id": "C93", "title": "Normalisation by statistics of the sample or the batch commutes with the group", "statement": "A layer that computes the channels of its output at a position from the channels at that position and from statistics of the whole sample and the whole batch that do not depend on the order of the positions (group elements included) - batch normalisation in training, instance normalisation, layer normalisation over positions and channels, squeeze and excitation - commutes with Group.action on signals on a group and on grid signals. Each sample of a transformed signal has exactly the values of the sample, at other positions, so the averages that batch normalisation keeps for later do not change either. Such layers may appear anywhere in the networks of C60 and C62. Statistics of a part of the positions only, such as a corner, do not suffice.", "quantifier": "for all library groups, listed subgroups, statistics that do not depend on the order, functions of them and of the channels, signals of any size and batch, networks", "why_tests_cant": "Statistics, functions, signals and architectures are arbitrary; a test can only normalise particular signals.", "anchors": ["groco/groups/group.py:48-135", "groco/utils/equivariance.py:check_equivariance", "README.md"]}
{"id": "C94", "title": "Pooling in floating point arithmetic", "statement": "Suppose an average pooling layer computes each mean by adding the values in any order and with any bracketing and then dividing by their number (or multiplying by the rounded reciprocal), with a relative error of at most u in every operation, differently in every entry and every call. Then a result is possible exactly when the layer returns in exact arithmetic, and every possible result differs from the exact one by at most e = ((1+u)^(r+n+4) - 1)X per entry, where r is the index of the subgroup, n the number of positions in the window and X bounds the input. Average pooling layers that are equivariant in exact arithmetic (the conditions of C32, or of C33 without strides) commute with the subgroup up to 2e. Global average pooling has the same error with r the length of the group axis and n the number of all positions, in both data formats and with or without keepdims, and its results for a signal and for a transform of it differ by at most 2e. Max pooling does not round: its outputs are entries of the input or padding zeros, and it commutes exactly whatever the precision. Average pooling in floating point is not exactly invariant: the same call can have several results.", "quantifier": "all library groups, subgroups, pooling arguments, data formats of global pooling, inputs, error bounds u, orders of evaluation and errors of the single operations (no overflow or underflow)", "why_tests_cant": "The tests compare means with a fixed tolerance on a few signals in one order of evaluation.", "anchors": ["groco/layers/pooling.py:GroupPooling", "groco/layers/pooling.py:GlobalGroupPooling", "groco/layers/group_transforms.py:GroupTransforms.subgroup_pooling", "tests/test_pooling.py"]}
{"id": "C95", "title": "Which arguments of Group.action decide what the signal is", "statement": "Whether Group.action takes the signal to be on the grid is decided by domain_group, not by group_axis: without group_axis a call raises on every signal unless domain_group=None is passed explicitly, so the call action(signal, ...) with the default arguments, documented to act on a signal on the grid, never returns (it raises KeyError if a group name is not listed, otherwise it fails on the missing axis). With domain_group=None the value of group_axis has no influence. '' and the group's own name mean the same for acting_group and for domain_group. acting_group=None, documented as the whole group, and names that the group does not list raise on every signal: KeyError for signals on the group, and for grid signals whose shape and axes the action accepts.", "quantifier": "all Group objects (library or not), signals of any entries and shape, axes, and group names", "why_tests_cant": "The tests pass all arguments explicitly; that no signal whatever is accepted by the documented default call is a statement about all signals.", "anchors": ["groco/groups/group.py:Group.action", "groco/groups/group.py:Group._action_on_group", "groco/groups/group.py:Group.parse_subgroups"]}
{"id": "C96", "title": "Two linear convolutions without padding in a row are one", "statement": "Let a first GroupConv layer have the whole group as subgroup, no padding ('valid', or 'valid_equiv' with strides 1), the linear activation and possibly a bias, and let a second GroupConv layer without padding follow it, with any subgroup H, strides, dilation, bias and activation. Then the two in a row equal one GroupConv layer: subgroup H, kernel size s1*dl2*(k2-1) + dl1*(k1-1) + 1, strides s1*s2, no dilation, the filters and activation of the second, and a bias if either has one. The weights of the one layer do not depend on the input, and for every batch size and every grid size the one layer gives the same output or the same exception as the two. The one layer can be built for every grid at least as large as its kernel. Strides of the first layer and both dilations must be equal on axes that the group exchanges. It is false with relu in between, and false with 'same_equiv' padding in between.", "quantifier": "all thirteen library groups, subgroups H, kernel sizes, strides, dilations, weights, biases, filters, activations of the second layer, signals on the grid or on the group, batch and grid sizes; over any exact arithmetic (commutative semiring)", "why_tests_cant": "The tests never stack two layers and compare them to one; the equality holds for all weights and all image sizes, including those for which a layer raises.", "anchors": ["groco/layers/conv2d.py:GroupConv2D.call", "groco/layers/conv3d.py:GroupConv3D.call", "groco/layers/group_transforms.py:GroupTransforms.transform_kernel,GroupTransforms._compute_transformed_kernel_indices", "groco/layers/padding.py:EquivariantPadding.build"]}
{"id": "C97", "title": "Two poolings without padding in a row are one", "statement": "A pooling layer for the group G with pool size k1 and strides s1 that pools to the subgroup H, followed by a pooling layer of the same kind for the group H with pool size k2 and strides s2 that pools to K, both without padding ('valid', or 'valid_equiv' with strides 1 or no strides given), equals one pooling layer for G with subgroup K, pool size s1*(k2-1)+k1 and strides s1*s2: for every signal the same output or the same exception. For means the first windows must be tiles (s1 = k1), for maxima they may also overlap (s1 <= k1). The one layer can be built for every grid size. (G, H, K) must not be one of the three exceptions of C72. With gaps between the first windows, or means over overlapping windows, the results differ.", "quantifier": "all groups and subgroups of the library, all numbers of dimensions, pool sizes and strides per axis, grid and batch sizes, channels, signals; all pooling functions with the laws of exact maximum and mean", "why_tests_cant": "The tests never stack pooling layers, and sample few sizes and strides.", "anchors": ["groco/layers/pooling.py:GroupPooling", "groco/layers/group_transforms.py:GroupTransforms.subgroup_pooling,GroupTransforms.build_pool", "groco/groups/wallpaper_groups.py", "groco/groups/space_groups.py"]}
{"id": "C98", "title": "Strides keep every s-th pixel", "statement": "A GroupConv2D/GroupConv3D layer with strides s, any padding option and any subgroup gives the output of the layer with strides 1, padding 'valid', the whole group and the same weights, on the input surrounded by zeros, of which only the pixels whose positions are multiples of s and the elements of the subgroup are kept; and it raises in the same cases. The border of zeros depends on the layer and the input size only. There is none for 'valid'; for 'valid_equiv', and for equivariant layers without dilation on inputs of the size they were built for, it is as wide in front as behind, and in the latter case the last window ends exactly where the border ends. The layer with strides 1 exists whenever the given layer does. Likewise a pooling layer with 'valid' or 'valid_equiv' and strides s is the pooling with strides 1 without padding on the bordered input, of which every s-th pixel is kept; there is no border if the argument strides is not given.", "quantifier": "all groups, subgroups, kernel sizes, strides, dilations, padding options, group-valued or plain inputs, grid sizes (also others than the layer was built for), weights, activations, entries and arithmetics", "why_tests_cant": "tests compare single configurations with precomputed or transformed outputs; the relation between strides and subsampling concerns all combinations of sizes, strides and padding", "anchors": ["README.md:65-79", "groco/layers/conv2d.py:GroupConv2D", "groco/layers/conv3d.py:GroupConv3D", "groco/layers/pooling.py:GroupMaxPooling2D,GroupAveragePooling2D", "groco/layers/padding.py:EquivariantPadding"]}
{"id": "C99", "title": "Whether a call raises depends on shapes only", "statement": "Make a GroupConv or GroupConvTranspose layer, a group pooling layer or a global group pooling layer, build it for some shape and call it on a tensor; or call Group.action of a group of the library. Whether this succeeds, which exception is raised if not, and the shape of the result depend only on the arguments (of which the activation does not matter), the shape that the layer is built for and the shape of the tensor: not on the entries of the tensor, not on the values of the weights, and not on the type of numbers. The same holds for a model of such layers and for layers that are called one after the other, each built when it is called.", "quantifier": "all arguments (also ones that are rejected), groups given by name or as objects, both data formats, shapes of any rank, entries, weights, activations, arithmetics, and models of any length", "why_tests_cant": "a test runs on particular entries; that no entry or weight can make a call fail or change its shape concerns all of them", "anchors": ["groco/layers/conv2d.py:GroupConv2D", "groco/layers/conv3d.py:GroupConv3D", "groco/layers/conv2d_transpose.py:GroupConv2DTranspose", "groco/layers/conv3d_transpose.py:GroupConv3DTranspose", "groco/layers/pooling.py:GroupMaxPooling2D,GlobalGroupMaxPooling2D", "groco/layers/group_transforms.py:GroupTransforms", "groco/groups/group.py:Group.action"]}
{"id": "C100", "title": "The groups that the documentation lists", "statement": "Of the eleven groups in the tables of the README, ten exist in the library under the given name, have the given order, and consist of exactly the described symmetries, each once: P4M all symmetries of the square, P4 its rotations, P2MM the two reflections and the half turn, PMh the reflection that reverses the height, P2 the half turn, P1 nothing, Oh all symmetries of the cube, O its rotations, D4h all symmetries that keep the third axis, D4 the rotations among these. PMv does not exist; the group is called PMw. The table in the docs has PMw, but calls P4M P4MM, and this name does not exist either. A layer that is given one of the two names cannot be made: KeyError.", "quantifier": "all groups in the tables of the README and the docs, all signed permutations of the axes, all other arguments of the layers", "why_tests_cant": "tests use the names of the code; that a group consists of exactly the symmetries with some property quantifies over all symmetries", "anchors": ["README.md:101-126", "docs/source/symmetries.rst:16-100", "groco/groups/wallpaper_groups.py", "groco/groups/space_groups.py", "groco/layers/group_transforms.py:GroupTransforms.__init__"]}
{"id": "C101", "title": "Turning the weights permutes the slices of the output", "statement": "Take two GroupConv2D or GroupConv3D layers with the same arguments and biases, built for the same shape. The kernel of the second is the kernel of the first, transformed by Group.action with an element w of the layer's subgroup (the whole group if no subgroup is given). Then on every input the second layer returns the slices of the first in another order: its slice for the element h is the first layer's slice for h composed with w. If one raises, so does the other, with the same exception. So the filters of a layer are only determined up to the elements of the subgroup by the set of its feature maps. The same holds for GroupConv2DTranspose and GroupConv3DTranspose layers for signals on the grid or on the whole group, with w and h any elements of the group, if the numbers of both kernels are read in the order pixels, channels, filters (see C105).", "quantifier": "all library groups and subgroups, elements w and h, kernels, biases, sizes, strides, dilations, paddings, activations, lifting layers and layers on group signals, inputs, arithmetics", "why_tests_cant": "the relation concerns all kernels, inputs and pairs of group elements, in any arithmetic", "anchors": ["groco/layers/group_transforms.py:GroupTransforms.transform_kernel", "groco/layers/group_transforms.py:GroupTransforms._compute_transformed_kernel_indices", "groco/layers/conv2d.py:GroupConv2D.call", "groco/groups/group.py:Group.action"]}
{"id": "C102", "title": "What an entry of the output depends on", "statement": "Call a GroupConv2D or GroupConv3D layer on two inputs with the same spatial sizes. If the inputs agree at the pixels in the window of an output pixel (kernel size, strides, dilation rate, and a border of zeros that depends only on the layer and the sizes), in one sample each, then the outputs agree at this pixel in these samples, for all elements of the group and all filters. The border is empty for 'valid', as wide on both sides for 'valid_equiv', and for the sizes that an equivariant layer was built for (without dilation) as wide on both sides with all windows fitting exactly. For transposed layers an output pixel depends only on the input pixels that reach it when the (padded) input is spread out by the strides and 'same' cuts off half of the difference of kernel size and stride. For group pooling layers, an entry depends only on the same channel, the pixels in the window and the group elements in the coset of its element; the border is as for convolutions, where the exact fit needs strides that are given.", "quantifier": "all library groups and subgroups, paddings, sizes, kernels, strides, dilations, weights, activations, inputs, batch sizes, output positions, arithmetics and kinds of pooling", "why_tests_cant": "independence of everything outside the window concerns all pairs of inputs", "anchors": ["groco/layers/conv2d.py:GroupConv2D.call", "groco/layers/conv3d.py:GroupConv3D.call", "groco/layers/padding.py:EquivariantPadding", "groco/layers/pooling.py:GroupMaxPooling2D", "groco/layers/group_transforms.py:GroupTransforms.subgroup_pooling", "groco/layers/conv2d_transpose.py:GroupConv2DTranspose.call"]}
{"id": "C103", "title": "Calls of one convolution layer from several threads", "statement": "A call of a group convolution stores the layer's kernel, bias and filters, replaces them by transformed ones, convolves, and puts the stored ones back; nothing protects these steps from other threads. (a) A thread on its own makes at most fifteen such steps and ends as the call of the sequential model, with the same result or exception and the same layer. (b) If threads call one layer one at a time (say under a lock) and every call would succeed on its own, each returns what it would alone and the layer is unchanged between the calls. (c) If at least two group elements act, any two calls that would succeed on their own can overlap so that both return the right tensors but the layer keeps the transformed weights: its kernel has another shape and its number of filters is multiplied; if it has a bias, every later call raises. (d) It is false that overlapping calls return right results: a call can return a wrong tensor of the right shape without any exception, and leave the layer intact. (e) If a single element acts in a non-transposed layer, every interleaving of any number of calls is harmless.", "quantifier": "all groups, arguments, signals, numbers of threads and schedules; (c) all layers with at least two acting elements and all pairs of successful calls", "why_tests_cant": "A race shows only under particular interleavings of attribute writes, which tests cannot choose and will almost never hit; that locking or a one-element group is enough is a claim about all schedules.", "anchors": ["groco/utils/misc.py:backup_and_restore", "groco/layers/group_transforms.py:GroupTransforms", "groco/layers/conv2d.py:GroupConv2D.call", "groco/layers/conv3d.py:GroupConv3D.call"]}
{"id": "C104", "title": "A turned copy of a pattern gets the same response anywhere in any image", "statement": "Call one GroupConv2D or GroupConv3D layer on two inputs of any spatial sizes and batch sizes. Take an output pixel in a sample of each. If the patch of the second input under the kernel at its pixel (with the zeros of the padding) is what Group.action makes of the patch of the first input at its pixel for some element w of the subgroup, then for every filter the output at the second pixel and at the element w composed with h is the output at the first pixel and at h. This needs no condition on padding, strides, dilation or sizes beyond those the layer itself checks. For group pooling layers the same holds for windows that lie in the images, if the pool size is equal along axes that the group exchanges and the pooling does not depend on the order of the values.", "quantifier": "all library groups and subgroups, paddings, strides, dilations, kernel and image sizes, pairs of inputs, pixels, group elements, weights, activations, arithmetics with commutative and associative addition", "why_tests_cant": "the claim compares any two patches of any two images; tests turn whole images of a few sizes only", "anchors": ["groco/layers/conv2d.py:GroupConv2D.call", "groco/layers/conv3d.py:GroupConv3D.call", "groco/layers/group_transforms.py:GroupTransforms", "groco/layers/pooling.py:GroupMaxPooling2D", "groco/groups/group.py:Group.action"]}
{"id": "C105", "title": "A layer is one ordinary convolution of all transformed copies of its input", "statement": "For a GroupConv2D or GroupConv3D layer that checks its sizes (allow_non_equivariance is False, no dilation, strides equal along axes that the group exchanges), take the ordinary Keras convolution with the same kernel, bias, strides, padding and activation (on the padded signal, the group axis merged with the channels if there is one). For every element u of the subgroup, the slice of the layer's output at u is obtained as follows: transform the input by the inverse of u with Group.action, apply the ordinary convolution, transform the result by u with Group.action on the grid. For transposed layers (under the conditions of C27) the same holds with the ordinary transposed convolution, for every element u of any listed subgroup if the input is on the grid and of the layer's subgroup if it is on that, but with the stored numbers of the kernel read in the order pixel, channel, filter; this is the stored kernel if there is one filter or one (merged) channel.", "quantifier": "all library groups and subgroups, padding options, kernels, strides, sizes, signals on the grid or the group, weights, activations, arithmetics in which sums can be reordered", "why_tests_cant": "an equality of two programs for all inputs and weights", "anchors": ["groco/layers/conv2d.py:GroupConv2D.call", "groco/layers/conv3d.py:GroupConv3D.call", "groco/layers/group_transforms.py:GroupTransforms.transform_kernel", "groco/groups/group.py:Group.action", "groco/layers/conv2d_transpose.py", "groco/layers/conv3d_transpose.py"]}
{"id": "C106", "title": "Transposed layers with output_padding", "statement": "GroupConv2DTranspose and GroupConv3DTranspose pass Keras' argument output_padding on to the superclass; the equivariant padding ignores it. (1) A call on a signal with the layer's number of channels succeeds exactly if along every axis the padded size is positive and output_padding is smaller than the stride ('valid', 'valid_equiv'), or output_padding plus the parity of the (dilated) kernel size lies between 1 and the stride ('same', 'same_equiv'); the sizes of the output are then (n-1)*stride + kernel + output_padding, or (n-1)*stride + kernel mod 2 + output_padding, where n is the padded size. Otherwise the backend raises, and the layer keeps the transformed weights. A successful call leaves the layer as it is. Signals with another number of channels are refused with a ValueError and leave the layer as it is. (2) A layer without the argument is the layer with output_padding = max(stride - kernel, 0), respectively stride - kernel mod 2. (3) With 'same' padding the output is a part of the output without the argument: it starts floor((kernel - kernel mod 2 - output_padding)/2) - floor((kernel - stride)/2) positions later (negative differences count as 0). With 'valid' padding both outputs agree where both have entries; entries beyond the output without the argument are the activation of the bias. (4) Without dilation, with strides and output_padding equal along axes that the group exchanges: if output_padding is 0 ('valid'), or even and at most the kernel size ('same'), and no asymmetric padding was added to the input, then the layer commutes with the group, for any stride, also in cases where the layer without the argument does not (kernel 5, stride 4, 'same_equiv'). (5) Other values can destroy the equivariance, and no layer refuses them for that reason. (6) compute_output_shape announces the sizes of (1) for the input without the padding the layer adds; on an input of the size the layer was built for that is the shape of the output exactly if the layer adds no padding of its own.", "quantifier": "all library groups, subgroups, sizes, strides, kernels, weights, signals and output_padding values", "why_tests_cant": "the tests never use output_padding, and which values are harmless depends on parities of kernel, stride and size", "anchors": ["groco/layers/conv2d_transpose.py:40-63", "groco/layers/conv3d_transpose.py:46-69", "groco/layers/padding.py:96-112"]}
{"id": "C107", "title": "A layer with global pooling is an ordinary network evaluated on all transformed inputs", "statement": "Take a GroupConv2D or GroupConv3D layer as in C105 (sizes checked, no dilation, strides equal along axes that the group exchanges) followed by GlobalGroupPooling, with a maximum or an exact mean, and assume that no spatial size of the layer's output is 0. The pooled output is obtained as follows: apply to every transformed copy of the input the ordinary convolution with the same kernel, bias, strides, padding and activation, pool each result globally with Keras' global pooling, and pool the results. So the two layers compute what averaging (or maximising) the ordinary network over all transformed inputs computes.", "quantifier": "all library groups and subgroups, padding options, kernels, strides, sizes, signals on the grid or the group, weights, activations, with and without keepdims, arithmetics in which sums can be reordered, poolings that do not depend on order and can be nested", "why_tests_cant": "an equality of two programs for all inputs and weights", "anchors": ["groco/layers/conv2d.py:GroupConv2D.call", "groco/layers/conv3d.py:GroupConv3D.call", "groco/layers/pooling.py:GlobalGroupPooling.call", "groco/groups/group.py:Group.action"]}
{"id": "C108", "title": "Exactly when transposed layers with output_padding are equivariant", "statement": "Take GroupConv2DTranspose or GroupConv3DTranspose layers with plain 'same' or 'valid' padding and a value of output_padding that the backend accepts (C106). They commute with the subgroup for all weights and all inputs of a given size exactly when the elements of the subgroup preserve the set of triples (output pixel, kernel pixel, input pixel) that the layer multiplies, and the output sizes agree along exchanged axes. Without dilation, and with strides and output_padding equal along exchanged axes, this is a condition on the axes that some element of the subgroup reverses, in which neither the stride nor the input size occurs: with 'valid' output_padding is 0, with 'same' it is even and at most the kernel size. So with output_padding set there are equivariant layers for every kernel size and stride, except that with 'same', an even kernel size and stride 1 the backend accepts only output_padding 1.", "quantifier": "all library groups and subgroups, sizes, strides, kernels, weights, signals, output_padding values", "why_tests_cant": "the tests never use output_padding; that every other value fails for some weights, and that the allowed ones never fail, is about all weights and signals", "anchors": ["groco/layers/conv2d_transpose.py:40-63", "groco/layers/conv3d_transpose.py:46-69"]}
{"id": "C109", "title": "Where 'same' and 'valid' are accepted, 'same_equiv' and 'valid_equiv' do the same", "statement": "Take two convolution, transposed convolution or pooling layers that are constructed from the same arguments, except that the padding is 'same' for one and 'same_equiv' for the other, or 'valid' and 'valid_equiv'. If both are built for an input shape and the padding layer of the second reports needs_padding = False, they give the same output (or exception) for every input, and the convolutions the same compute_output_shape. With allow_non_equivariance=False, whenever building the first layer succeeds, building the second succeeds too, with needs_padding = False. Conversely, if the second layer builds with needs_padding = False the first builds; if it builds with needs_padding = True, building the first raises ValueError unless non-equivariance is allowed.", "quantifier": "all numbers of dimensions, arguments (library groups or other group objects, both data formats, any strides, kernel sizes and dilations), weights, input shapes and inputs", "why_tests_cant": "the tests build each padding option for a few sizes and never compare the options with each other; that the options agree exactly where nothing has to be added is about all sizes and inputs", "anchors": ["groco/layers/padding.py:32-117", "groco/layers/group_transforms.py:55-89", "groco/layers/conv2d.py:41-101", "groco/layers/pooling.py:27-69"]}
{"id": "C110", "title": "Equivariant layers cannot break a symmetry of their input", "statement": "If Group.action of an element w does not change the input of a layer or network that commutes with it (such as those of C21, C22, C26, C27, C32, C39, C52 and C60), then it does not change the output either. A signal on the group or on a subgroup is unchanged by w exactly when for every h its slice for w composed with h is its slice for h, transformed by w as a signal on the grid. So if the input of a GroupConv2D or GroupConv3D layer (as in C21 and C22) is unchanged by an element w of the layer's subgroup, its feature maps for w composed with h are those for h, transformed by w. The same holds for GroupPooling layers as in C32.", "quantifier": "all library groups, subgroups, elements, signals, sizes, weights and layers that commute with the element", "why_tests_cant": "the tests use random signals, which have no symmetries; the claim is about all symmetric signals and all weights", "anchors": ["groco/groups/group.py:Group.action", "groco/layers/conv2d.py:GroupConv2D.call", "groco/layers/conv3d.py:GroupConv3D.call", "groco/layers/group_transforms.py:GroupTransforms.transform_kernel", "groco/layers/pooling.py:GroupPooling.call"]}
{"id": "C111", "title": "check_equivariance rejects signals and outputs that are not on the given groups", "statement": "If a domain group is given, check_equivariance raises KeyError for an unknown subgroup, TypeError if group_axis is None, IndexError if group_axis (which may be negative) is not an axis of the signal and AssertionError if the signal does not have one entry per element of the domain group at that axis; in all four cases the layer is not called. The output of the layer is treated in the same way with the target group. A number is returned only if both fit. An exception raised by the layer, in its first or second call, is passed on. An unknown acting group never gives a number, and raises KeyError for signals on a group. The second call gets all transformed signals as one batch; an output with a wrong number of entries, or with sizes that differ from those of the transformed output and are not one, raises an exception of the backend, and otherwise a number is returned.", "quantifier": "for all layers (any function), signals, groups, subgroup names and axes; for the second call all library groups, signals and outputs on which the two actions compute", "why_tests_cant": "The tests only call check_equivariance with matching groups and axes on a few layers; that every other combination raises, and never returns a misleading number, is a statement about all shapes and all layers.", "anchors": ["groco/utils/equivariance.py:4-73 (check_equivariance)", "groco/utils/equivariance.py:76-86 (_check_shape)", "groco/utils/equivariance.py:89-95 (_act_on_batched_transform)"]}
{"id": "C112", "title": "Layers called on signals with another group axis", "statement": "A GroupConv layer built for signals on a group of g elements checks the rank and the number of channels of its inputs, but not the size of the group axis. Keras takes an input with N times the channels of the kernel for a convolution in N blocks. Hence, if the layer is called on a signal with N*g entries along the group axis and N divides |subgroup| * filters, it raises only what it raises for each of the N parts with g consecutive entries of the group axis; otherwise the output at element number h and filter r is what the layer returns there for part number (h*filters + r) // (|subgroup|*filters/N), and the layer stays as it is. Every other positive size of the group axis raises an exception of the backend and leaves the transformed kernel and the multiplied number of filters in the layer. A signal without group axis raises IndexError and a signal with too few axes or another number of channels raises ValueError; in these cases the layer stays as it is. A GroupPooling layer reads the first g entries along the group axis: with more entries it returns what it returns for the signal of the first g, with fewer it raises an exception of the backend (with jax, which fills instead of raising, the latter does not hold).", "quantifier": "all library groups, subgroups, kernel sizes, strides, dilations, padding options, filters, channels, weights, activations, static input shapes, inputs and N; the ValueError for all layers in any state, including transposed layers, layers with output_padding, groups or an activation such as softmax and traced calls; pooling layers of either type with all pool sizes, strides, padding options and subgroups that return on some signal", "why_tests_cant": "The tests call layers on the shapes they were built for; that a wrong group axis is silently accepted exactly for certain sizes, and what is computed then, concerns all sizes and weights.", "anchors": ["groco/layers/conv2d.py:59-76", "groco/layers/conv3d.py:59-76", "groco/layers/group_transforms.py:75-89 (merge_group_axis_and_pad)", "groco/utils/tensor_manips.py:77-113 (merge_axes, merge_shapes)", "groco/layers/pooling.py:60-64", "groco/layers/group_transforms.py:121-131 (subgroup_pooling)"]}
