# GroCo in Rocq: design

`rocq/theories` contains a model of GroCo (commit pinned in /repo), written function by
function as total Gallina functions, and proofs about it.  Coq 8.16.1, standard library
only.  Build: `cd rocq && coq_makefile -f _CoqProject -o Makefile && make -j4` (about 10
minutes).  `properties.jsonl` lists the claims in English, `MANIFEST.json` the theorems that
prove (or, where the name ends in `_refuted`, disprove) them.

## Trusted base

1. **Coq's kernel**, including `vm_compute`, which is used for the finite tables and for the
   examples.  `Print Assumptions` stands behind every theorem of every `Properties_*.v` file
   and prints `Closed under the global context` for all of them: no axioms, neither of the
   standard library nor our own.  (The checker reports seven constants
   `Coq.ssr.ssrunder.Under_rel.*`: they are parameters of a module of the standard library
   that is loaded with `lia`/`setoid` tactics; no theorem depends on them.)
2. **The transcription of the Python text** in the model files (table below).  Each
   definition cites the lines that it models and says there what it leaves out.
3. **The semantics of Keras** (3.0.5, TensorFlow backend), which is external code and not in
   /repo: `Tensor.v` (the operations of `keras.ops`) and `Keras.v` (convolution, transposed
   convolution, pooling, argument validation, `compute_conv_output_shape`).  These are
   definitions, not axioms, so they cannot make the development inconsistent, but they can
   be wrong about Keras.

### Modelled code

| /repo | model | remarks |
|-------|-------|---------|
| `groups/group.py`, all of it | `Group.v` | `parent` is an argument of the constructor, not a field |
| `groups/wallpaper_groups.py`, all | `Wallpaper.v` | |
| `groups/space_groups.py`, all | `Space.v`, `OhTable.v` | the 48x48 table is transcribed mechanically |
| `groups/__init__.py` dictionaries | `Space.v` | |
| `utils/tensor_manips.py`, all | `Utils.v` | |
| `utils/misc.py` | `Layers.v` (`conv_call`) | as a state transformer, including calls that raise |
| `utils/misc.py` and `call` of the convolutions, several threads | `Threads.v` | each read or write of `kernel`, `bias` and `filters` is one atomic step, steps of different threads interleave freely; eager calls; Keras' `BaseConv.call` reads the kernel, then `filters`, then the bias |
| `utils/equivariance.py`, all | `Equivariance.v` | the layer is a function; its `group` attribute is an argument |
| `layers/padding.py`, all | `Padding.v` | text of error messages not modelled, their computation is (it raises by itself) |
| `layers/group_transforms.py`, all | `GroupTransforms.v` | four attributes that are never read are left out |
| `layers/conv2d.py`, `conv3d.py`, `conv2d_transpose.py`, `conv3d_transpose.py` | `Layers.v` | one record for the four classes, which have the same text |
| `layers/pooling.py`, all | `Layers.v` | |
| activations of whole channel vectors | `Activations.v` | `Layers.v` has entrywise ones |
| `build` that raises: what it has assigned before | `Rebuild.v` | weights that Keras created before raising are not kept |
| the convolution layers with Keras' `groups=` | `Grouped.v` | the other layers have no such argument |
| transposed layers with Keras' `output_padding=` | `OutputPadding.v` | `build` does not use it; sizes announced for inputs of size 0 are not |
| models: which shapes Keras builds the layers with | `Sequential.v` | Keras 3's `Layer.compute_output_spec`; only the batch size may be unknown |

### Not modelled

* Floating point, except in C85, C92 and C94.  Entries belong to an arbitrary type with zero, addition and
  multiplication; theorems that need a law (commutativity of addition, neutral elements, a maximum
  or mean that does not depend on the order) have it as a hypothesis, and the integers satisfy it.
  In C85 entries are rational numbers and every sum and product is rounded (`rounded`); there is no
  overflow, underflow, infinity or NaN, and sums are taken in the order of `Keras.v`; C92 allows any
  order, but the same products (no Winograd or Fourier algorithms).
* Automatic differentiation.  C87 is about the derivative of the modelled function (taken from its
  linearity, with any function in the place of the activation's derivative), not about how a backend
  computes it.
* Optimisers.  C88 holds for any function that maps a state and the gradients to a new state.
* Data types, devices, serialisation to files, names of layers and
  weights, `kwargs` of Keras other than the ones listed in `conv_args`/`pool_args`.
  `output_padding` is modelled for the transposed layers' `call` and `compute_output_shape` (`OutputPadding.v`), without Keras' check of the argument.
* Symbolic tensors.  A static shape with unknown sizes (`sshape`) is modelled where the code
  computes with it (`build`, `format_batch_dim`).  `Layers.v` has calls on tensors whose sizes
  are all known; `Traced.v` has the same calls with some sizes hidden in `tensor.shape`.  There
  the sizes of the output are assumed to be unknown on the axes where those of the input are.
* Error messages, and which error type a backend raises (`BackendError` stands for it). Reading a composition
  table beyond its end (C03, C82) is an IndexError in the model, as in NumPy and PyTorch; TensorFlow has an error type
  of its own there and JAX returns the last entry.
* Axes of size 0 in 'same' convolutions (TensorFlow returns an empty tensor), and the
  broadcast of a bias with one filter (`Keras.v`).
* `channels_first` on TensorFlow/CPU, which that backend does not support; the model gives
  the operation the meaning it has on the other backends.

## Modelling decisions

* A tensor is a shape (list of nat) and the flat row-major list of its entries.  `ops.reshape`
  keeps the list, the other operations are defined entry by entry.  Equality of tensors is
  equality of shape and of all entries.
* Exceptions are values (`result A := Ok a | Err e`).  A theorem that says "raises" names the
  exception.
* `Group` is a record with the attributes of the Python class; `_action` is a field that
  works for every entry type (the code applies it to index tensors and to values, C24).
* Layers are records; constructor, `build` and `call` are functions.  `call` returns the new
  state as well, because it temporarily replaces the weights (C35).
* Axes are integers, as in Python, and are normalised by each operation.  The theorems about
  the group action are about non-negative axes, except C56, which reduces negative axes to
  them or says what happens instead.

## Files

* Model: `PyBase` (Python), `Tensor`, `Keras` (external library), `Utils`, `Group`, `Wallpaper`,
  `OhTable`, `Space`, `Padding`, `GroupTransforms`, `Layers`, `Equivariance`.
* Vocabulary of the statements, independent of the model's helper functions: `Spec` (signed
  permutations, group laws, slices of a tensor), `LayerSpec`, `EquivSpec`, `PoolSpec`,
  `CheckSpec`, `StackSpec`, `NetSpec`, `GraphSpec`, `FormatSpec`.
* Theorems: `Properties_*.v`, one theorem or more per claim, named after it, with examples
  evaluated on concrete inputs.
* Everything else (`*Facts.v`, `*Theorems.v`): lemmas.

## How the proofs go

* Groups: the tables are checked by evaluation and the result lifted to statements with
  quantifiers; each element is tied to a signed permutation of the axes (`OhFacts`,
  `LibraryFacts`), and every claim about the action follows from index-level
  descriptions of the tensor operations (`OpFacts`, `ActionFacts`, `GroupActionFacts`).
* Padding: arithmetic of residues.
* Convolutions: a layer that builds is described by the record `conv_facts` (`BuildFacts`),
  its call by one formula (`CallFacts`), and equivariance is a change of variables in a finite
  sum (`WindowFacts`, `ConvFacts`, `EquivFacts`).  Pooling: the same with an arbitrary
  symmetric function of a list (`PoolFacts`, `PoolTheorems`).
* Exact conditions for building (`BuildTheorems`, C53, C57 and C61): the implication from a built
  layer to its conditions is `BuildFacts`; the converse runs the code under the conditions.
* Unknown spatial sizes (`UnknownFacts`, C63): only the padding and Keras' output shape look at
  the sizes in `build`, so two builds differ in the stored input shape alone.
* Calls with unknown sizes (`TracedFacts`, C64): a reshape with one -1 finds the missing size,
  one with two raises.
* Translations (`TranslationFacts`, C55): a change of variables in the grid coordinates.
* Negative axes (`AxisFacts`, C56): each operation normalises its axes by the rank of the
  tensor that it sees, and the rank grows by one in the middle of the action.
* Groups of another dimension (C65): what `_action` does with `spatial_axes` is read off; `build`
  always applies it to the kernel.  P1 acts in every dimension (C66): the facts about a group are
  proved once for the action and the tables in dimension d, and P1 has them for every d.
* Blocks of channels (`GroupedFacts`, C67): the layer has the weights of the layer for one block.
  If it were equivariant, a signal made of one block of x and the other blocks of x' would have
  the outputs of both.
* Completeness (`CompleteFacts`, C69): a signal with a single entry 1 and the size of the kernel
  reads off the kernel, so commuting with the action is a statement about the kernel.  For
  transposed layers (`Properties_TransposedComplete`, C84) a signal of one pixel does the same.
* The project's own tests (`Properties_Tests`, C70): the theorems on when layers build, what they
  return and when they are equivariant, put together for the arguments the tests use.
* Pooling in steps (`Properties_PoolSteps`, C72, C73): the products of the representatives of the
  two steps are, up to their order, the representatives of the one step (checked for all pairs of
  steps); tiles and cosets together list every value of the signal once.
* Failed builds (`Properties_Rebuild`, C74): the state after any sequence of failed builds is the
  fresh one up to the channel axis, the domain group and the numbers of the padding layer.
* Models (`Properties_Sequential`, C75): extra padding always enlarges the output, so the shape of
  `compute_output_shape` is right only without it; then the layers form a stack.
* The notebook (`Properties_Notebook`, C76): each layer on a cube is shown to get built, to announce
  its real shape and to compute for every batch (`convolution_step`, `pooling_step`); C75 gives the
  equivariance of the whole model, and moving a signal permutes the positions (pixel, element) that
  the global pooling runs over. The Dense layer with its softmax is not modelled; it is a function
  of the features.
* Linearity (`LinearFacts`, C78): the call of any layer is one formula, `layer_form`, a sum of products
  of a weight and an entry of the signal; "exact arithmetic" is a commutative ring (floating point
  is not one).
* Rounding (`RoundingFacts`, C85): `layer_form` holds without any law, so the rounded and the exact
  layer are the same sum of products; the usual (1+u)^n bound compares them, and the exact layer is
  equivariant by C26 and C27.
* Exactness (`ExactFacts`, C86): a kernel and a signal with a single nonzero entry each tell whether
  two pixels meet, so commuting for all weights forces the subgroup to preserve the meeting triples;
  conversely, matching triples give the same sum. Adding the equations of a triple and of its
  mirror image gives the condition per axis. For pooling (`Properties_ExactPool`, C89) a signal with a
  single different pixel tells whether that pixel is in a window.
* Gradients (`GradientFacts`, `Properties_Gradients`, C87): a transformed signal has the same entries in
  another order, so the pairing of two transformed signals is that of the signals; a gradient is the
  tensor that represents a linear function of the weights or of the input.
* Training (`Properties_Training`, C88): backpropagation through a list of layers and training over a
  list of examples are inductive relations.  The step for one layer is C87.  The loss enters as the
  gradient with respect to the output of the network, which has to be equivariant; this is proved for
  sums over the entries and for functions of the pooled output.
* Correlation (`CorrelationFacts`, `Properties_Correlation`, C90): where a padding is symmetric, the
  distance of a pixel from the centre of its window is its distance from the (scaled) centre of the
  output pixel; the sum over the window is then a sum over the image with the kernel as a function
  that vanishes elsewhere, and turning the kernel about its centre is turning that function.
* Kinds of numbers (`EntryMapFacts`, `ActionMapFacts`, C91): every operation on tensors commutes with
  maps of the entries that respect what the operation uses; the code is followed line by line, so
  no assumptions about the arguments are needed.
* Sums in any order (`AnyOrderFacts`, `Properties_AnyOrder`, C92): the layers are run on formal sums of
  products (`formula`), which are not evaluated by the layer.  `evaluates` says which numbers a program
  may compute for such a sum.  The exact output is the value of the formulas by C91; that each formula
  has at most n products is read off from `layer_form`.  Products with the zeros of the padding are left
  out of the sums (adding zero is exact).  The action keeps nearness because of C91, applied to pairs of
  near numbers.
* Normalisation (`Properties_Normalisation`, C93): `with_statistics` in `NetSpec` is our
  vocabulary for Keras layers that GroCo's users put between its layers; Keras itself is
  not modelled. A layer is given by a function of the values of the batch, of the sample and
  of the position, which must not depend on the order of the positions (`statistics`).
  The proof shows that an action puts the positions of every sample in another order
  (`values4_moved`, `values3_moved`). The networks of C60 and C62 have a constructor for
  these layers. Floating point statistics depend on the order of summation; C93 is about
  the exact ones.
* Rounding in pooling layers (`AverageFacts`, `Properties_PoolRounding`, C94): the layers are run on
  averages that are not calculated (`averages`); `calculates` says which numbers a program may
  compute for them.  The two stages of the code are kept: first over the cosets (or the group axis),
  then over the window.  Keras' own padding does not take part in a mean, the zeros of the padding
  layer do.
* Two layers in a row (`ComposeFacts`, `Properties_Compose`, C96): the kernel of the one layer is written
  down (`joint_kernel`: for every pixel of the joint kernel, group element and channel, the sum over the
  ways to reach it through the two kernels) and shown to transform under the group as the product of the
  two transformed kernels does; the two nested windows are then regrouped (`two_windows`). The strides and
  dilations must respect exchanged axes because the joint kernel is a kernel of the group only then.
* Two poolings in a row (`Properties_PoolCompose`, C97): nested poolings are flattened into one list of
  (position, group element) pairs (`nests`), which has the same elements as the list of the one layer; if
  the first windows are tiles it is a permutation of it, otherwise the pooling must ignore repetitions.
* Strides (`Properties_Strides`, `Properties_PoolStrides`, C98): the formula of the layer with strides reads pixel
  p*s+j of the input behind its padding, which is what the layer with strides 1 reads at p*s of the padded
  input.  Padding pixels contribute mul 0 w in both, so no law of arithmetic is needed; for pooling the subgroup is
  pooled before the padding, so pooling zeros must give zero if there is a border.
* Outcomes (`Properties_Outcomes`, C99): C91 applied to the map that sends every number to the only element
  of the one-element type. Two tensors of one shape have the same image, so the calls on them have the same
  image too, and this contains the exception or the shape of the result. With this, layers that are called one
  after the other (`call_layers`) are the same layers for the signal and for its transformed signals, and C39
  applies to them (`Properties_Calls`, C75).
* Turned weights (`Properties_TurnedWeights`, `Properties_TurnedTransposed`, C101): the kernel turned by w and then by h is the kernel turned by
  h composed with w (`turned_twice`), so C23 gives the same ordinary convolution for both slices.
* Receptive fields (`Properties_Fields`, C102): the formulas of the layers (`layer_form`, `pool_call_eq`) read the
  input only at `csrc`, which lies in the window; no law of arithmetic is used.
* Threads (`Threads`, `Properties_Threads`, C103): a call is cut into fifteen steps. Fifteen steps of
  one thread are `conv_apply`. Exclusive schedules keep an invariant: either no call is under way and the
  layer is the original one, or one thread is a certain number of steps into its call. The
  damaging schedule lets the second thread store the replaced weights. A layer with a bias
  and multiplied `filters` raises and keeps its bias indices, so it raises forever. With one acting element
  the transformed weights are the stored ones, hence no write changes anything.
* Turned patches (`Properties_Patches`, C104): a window of a layer is the only window of the layer without strides
  and padding on the patch alone (`window_patch`, `pool_patch`), where the windows always mirror.
* Transformed copies (`Properties_Copies`, C105): slice 0 is the ordinary convolution (C23); C21 and C22 carry it to the
  other slices.
* Transformed copies in transposed layers (`Properties_TransposedCopies`, C105): slice 0 is the ordinary transposed convolution
  with the reread kernel (`transpose_slices`, `first_slice`); C27 carries it to the other slices.
* Augmentation (`Properties_Augment`, C107): C105 slice by slice; the pools over pixels and over the group are exchanged
  with the two laws of C72.
* Output padding (`Properties_OutputPadding`, C106): the call is the window sum of C26 with other output sizes and
  another crop; the proof of C27 works for every size and crop that are mirror symmetric.
* Output padding, necessity (`OpExactFacts`, `Properties_OpExact`, C108): as C86; a kernel and a signal with one entry
  each tell a triple that is not preserved.  Only for plain padding.
* Padding options (`Properties_EquivOptions`, C109): two layers whose padding differs by the suffix `_equiv` differ only in
  the name stored in the padding layer, as long as it reports that nothing has to be added; neither `build` nor `call` looks
  at that name afterwards
* Symmetric inputs (`Properties_Symmetric`, `Properties_SymmetricPool`, C110): a commuting call maps number w of the transformed inputs to number w of
  the transformed outputs; `group_slices` reads the resulting equation slice by slice
* What `check_equivariance` rejects (`Properties_CheckRejects`, C111): the ways not to be on a group are listed as an
  inductive predicate with the exception of each; exactly one of "fits" and "does not fit with exception e" holds.
* Another group axis (`Properties_OtherGroup`, C112): the description of grouped convolutions of C67 is used with the blocks
  that Keras infers, for a layer that was made without `groups`.  Pooling layers (`Properties_OtherGroupPool`): the pooling
  indices cover the group, so they are all in range exactly if the group axis has at least g entries.
* Adjoints (`Properties_Adjoint`, C79): both inner products are sums over pixels, channels and kernel
  entries in opposite order; a pixel is a source of another in the convolution exactly if it is its
  target in the transposed one. C79 needs the whole group: for a proper subgroup the two layers have
  different numbers of weights.
* User-made groups (`UserGroups`, C80, C81): `describes` says what a `Group` object has to fulfil; the
  proofs about layers only use this (`group_ok`), so they hold for such objects too.  The finite
  parts are decided by a checker (`checks_ok`), the derivation from a parent is `derived_describes`.
* Subgroups (`Properties_Subgroups`, C82, C83): all 256 sets of elements of P4M are checked.
* Stacks, networks with branches, encoders and decoders: induction (`StackFacts`, `NetFacts`,
  `GraphFacts`).
* Formats: a layer in the other format is the rearranged layer (`FormatFacts`,
  `PoolFormatFacts`), equivariance is transported (`FormatEquiv`), and so is what
  `compute_output_shape` says (`Properties_FormatShapes`, C30).

## Claims that turned out false as first written

The first version of `properties.jsonl` was written from the documentation.  Where the code
does something else, the claim now says what the code does, and a theorem with the suffix
`_refuted` has a witness against the first version.

* C04: the docstring of `Group` describes another composition than the tables contain.
* C09: D4h and D4 accept only cubes (README: a cuboid of different depth).
* C16: `same_equiv` without solution raises AttributeError instead of the intended ValueError.
* C20: `data_format` is not passed on to the padding layer, so `channels_first` layers pad the
  wrong axes.
* C26, C27: transposed layers that build are not always equivariant.
* C28: transposed layers from a subgroup extend the kernel with its first entry, not with 0
  (an index tensor is extended by index 0).
* C30: `compute_output_shape` ignores the subgroup and the extra padding.
* C32, C33: pooling with pool sizes that differ along exchanged axes, with `same_equiv` and an
  odd number of rows, or with default strides, builds and is not equivariant.
* C35: a call that raises leaves transformed weights behind.
* C40: `get_config` always raises AttributeError.
* C11: `P4M.action` with `acting_group='PMw'` raises on non-square images, `PMw.action` does not.
* C41: `subgroup=None`, the documented default, raises KeyError.
* C43, C44, C45: different strides, even dilated kernels, other input sizes.
* C47: option names in upper case are accepted by the padding layer and then rejected by Keras.
* C61: a transposed layer with strides equal to the kernel size and 'valid' padding builds only for
  sizes that are multiples of the stride, though it would be equivariant for all sizes.
* C56: negative spatial axes together with a negative `new_group_axis` act on the axes next to
  the ones that were meant, without an error; a negative `group_axis` raises.
* C58: a pooling layer that is built for signals without a group axis pools the first channels
  as if they were the group elements, provided there are at least as many, and ignores the rest.
* C65: 3D layers for wallpaper groups are constructed without complaint and cannot be built;
  2D layers for space groups build for some numbers of channels and then mix channels with
  positions.
* C66: a transposed layer for P1 is not the transposed convolution with the same kernel; the
  numbers of the kernel are read in another order.
* C67: a layer with `groups=N`, N > 1, gives different input channels to different elements of
  one filter; it is not equivariant, and nothing raises.
* C68: `activation='softmax'` normalises over all elements and filters together.
* C72: pooling from P4M to P2MM and then to PMw or PMh, and from Oh to D4h and then to D4, is not
  pooling to the last group at once.
* C74: a layer that has raised in its first call, say because of a wrong group axis, also raises
  for the right shape afterwards; a fresh layer is needed.
* C75: in a Sequential or functional model nothing can follow a convolution with a proper
  subgroup, and after a convolution that pads the next layer is built for the wrong size; the
  model may then silently not be equivariant.
* C77: layers for signals on a group have |G| times as many weights as the ordinary layer with as many
  channels per element.
* C80: a `Group` object whose name is not in the library cannot be used with the default subgroup,
  because the layers look every subgroup name up in the library (KeyError).
* C83: the README's "p4m and all its subgroups" misses three of the ten subgroups.
* C84: on a proper subgroup, transposed layers do not compute all equivariant transposed convolutions.
* C85: in binary32 a layer need not be exactly equivariant: rotated entries are added in another order.
* C86: the check behind `allow_non_equivariance` also refuses equivariant layers: for subgroups that
  do not reverse every axis, for dilated layers and for transposed ones.
* C87: where a layer is not equivariant ('same', stride 2, even size), rotated examples give other
  gradients for the weights.
* C89: for pooling layers that check also refuses equivariant layers: for subgroups that do not
  reverse every axis, when every window covers a whole axis, and when no strides are given.
* C90: a layer with 'same' and an even kernel that `allow_non_equivariance` lets through does not
  compute the group correlation about the centres of the images.
* C91: max pooling does not commute with adding a constant, because of the zeros of the extra padding.
* C92: a layer in floating point need not be a function: with another order of the sums the same call
  returns other numbers.
* C94: average pooling in floating point is not exactly invariant.
* C95: `Group.action(signal)` does not act on a signal on the grid, as documented, but raises; so does
  `acting_group=None`.
* C96: two linear layers with a relu in between are not one layer, nor are two with `same_equiv` padding
  (both refuted for every choice of weights of the one layer).
* C97: two poolings are not one if the first windows leave gaps, or if means over overlapping windows are taken.
* C100: the README lists a group PMv (the library calls it PMw) and the docs a group P4MM (P4M).
* C103: calls of one layer from several threads without a lock can return wrong tensors of the right
  shape, or leave the layer with transformed weights for good. Witness: P4, 3 x 3 kernel, two threads.
* C38: `check_equivariance` returns 0 for a layer that mixes the samples of a batch and does not commute (its
  docstring excludes such layers).
* C106: an `output_padding` that destroys the equivariance is accepted silently.
* C112: signals with a group axis of the wrong size are not always rejected; some multiples of the right size are misread.
* C34: global pooling does not treat all spellings of 'channels_first' that Keras accepts alike (`Properties_GlobalLetters`).
* C71: `test_subgroups` accepts every list of elements that contains the identity, closed or not.

Further observations: `P2MM` does not list "P2" as a subgroup and the space groups do not list
"P1"; the README says `PMv` where the code says `PMw`; the docs say `P4MM` where the code says `P4M`; `GlobalGroupPooling.build` on a signal
without group axis raises UnboundLocalError; `data_format` in another letter case is accepted
and breaks the axis bookkeeping (C46_case_letters); building a layer twice, also when
the first build has raised, increments the channel axis twice (C74).

## Tests of the theorems

`seeded/LOG.jsonl` records edits of the model that resemble bugs, the claim that each breaks, and
the theorems whose proofs fail with it.  A proof that survives an edit that makes its claim
false would mean that the theorem says too little.
`theorems_failed` lists the theorems that fail or rest on a proof that fails; `first_broken_proofs` lists
those proofs.  Where a note says which files were rebuilt, theorems in other files may fail as well.
