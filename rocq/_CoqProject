-Q theories Verif
theories/PyBase.v
theories/Tensor.v
theories/Utils.v
theories/Group.v
theories/Wallpaper.v
theories/OhTable.v
theories/Space.v
theories/TensorFacts.v
theories/OpFacts.v
theories/UtilsFacts.v
theories/Spec.v
theories/ActionFacts.v
theories/OhFacts.v
theories/GroupFacts.v
theories/LibraryFacts.v
theories/GroupActionFacts.v
theories/GroupTheorems.v
theories/DerivedFacts.v
theories/LibraryTheorems.v
theories/LibraryLookup.v
theories/Properties_Groups.v
theories/UtilsTheorems.v
theories/Properties_Utils.v
theories/Padding.v
theories/Keras.v
theories/GroupTransforms.v
theories/Layers.v
theories/Equivariance.v
theories/LayerSpec.v
theories/PaddingFacts.v
theories/Properties_Padding.v
theories/WindowFacts.v
theories/SignalFacts.v
theories/ConvFacts.v
theories/KernelFacts.v
theories/LayerFacts.v
theories/BuildFacts.v
theories/CallFacts.v
theories/EquivFacts.v
theories/ConvTheorems.v
theories/EquivSpec.v
theories/Properties_Conv.v
theories/SliceFacts.v
theories/Properties_Layers.v
theories/ShapeFacts.v
theories/Properties_Shapes.v
theories/PoolFacts.v
theories/PoolTheorems.v
theories/GlobalFacts.v
theories/PoolSpec.v
theories/Properties_Pooling.v
theories/CheckSpec.v
theories/CheckFacts.v
theories/LayerBatch.v
theories/Properties_Checks.v
theories/Properties_Config.v
theories/StackSpec.v
theories/StackFacts.v
theories/Properties_Stacks.v
theories/FormatSpec.v
theories/FormatFacts.v
theories/Properties_Formats.v
theories/PoolFormatFacts.v
theories/FormatEquiv.v
theories/Properties_ChannelsFirst.v
theories/BuildTheorems.v
theories/Properties_Build.v
theories/TranslationFacts.v
theories/Properties_Translations.v
theories/AxisFacts.v
theories/Properties_Axes.v
theories/Properties_PoolBuild.v
theories/NetSpec.v
theories/NetFacts.v
theories/Properties_Networks.v
theories/Properties_TransposedBuild.v
theories/GraphSpec.v
theories/GraphFacts.v
theories/Properties_Graphs.v
theories/UnknownFacts.v
theories/Properties_Unknown.v
theories/Traced.v
theories/TracedFacts.v
theories/Properties_Traced.v
theories/Properties_Dimensions.v
theories/TrivialFacts.v
theories/Properties_Trivial.v
theories/Grouped.v
theories/GroupedFacts.v
theories/Properties_Grouped.v
theories/Activations.v
theories/Properties_Activations.v
theories/CompleteFacts.v
theories/Properties_Complete.v
theories/Properties_Tests.v
theories/Properties_PoolSteps.v
theories/Rebuild.v
theories/Properties_Rebuild.v
theories/Sequential.v
theories/Properties_Sequential.v
theories/Properties_Notebook.v
theories/LinearFacts.v
theories/Properties_Linear.v
theories/Properties_Adjoint.v
theories/UserGroups.v
theories/Properties_UserGroups.v
theories/Properties_Subgroups.v
theories/Properties_FormatShapes.v
theories/Properties_TransposedComplete.v
theories/RoundingFacts.v
theories/Properties_Rounding.v
theories/ExactFacts.v
theories/Properties_Exact.v
theories/GradientFacts.v
theories/Properties_Gradients.v
theories/Properties_Training.v
theories/Properties_ExactPool.v
theories/CorrelationFacts.v
theories/Properties_Correlation.v
theories/EntryMapFacts.v
theories/ActionMapFacts.v
theories/Properties_EntryMaps.v
theories/AnyOrderFacts.v
theories/Properties_AnyOrder.v
theories/Properties_Normalisation.v
theories/AverageFacts.v
theories/Properties_PoolRounding.v
theories/Properties_ActionArguments.v
theories/Properties_Sizes.v
theories/ComposeFacts.v
theories/Properties_Compose.v
theories/Properties_PoolCompose.v
theories/Properties_Strides.v
theories/Properties_PoolStrides.v
theories/Properties_Outcomes.v
theories/Properties_Calls.v
theories/Properties_Docs.v
theories/Properties_TurnedWeights.v
theories/Properties_Fields.v
theories/Threads.v
theories/Properties_Threads.v
theories/Properties_Patches.v
theories/Properties_CheckShapes.v
theories/Properties_Copies.v
theories/OutputPadding.v
theories/Properties_OutputPadding.v
theories/Properties_Augment.v
theories/OpExactFacts.v
theories/Properties_OpExact.v
theories/Properties_TransposedCopies.v
theories/Properties_Unbuilt.v
theories/Properties_EquivOptions.v
theories/Properties_TurnedTransposed.v
theories/Properties_Symmetric.v
theories/Properties_CheckRejects.v
theories/Properties_OtherGroup.v
theories/Properties_OtherGroupPool.v
theories/Properties_SymmetricPool.v
theories/Properties_GlobalLetters.v
