# nnj in Rocq: design

Target: `/repo` (IlMioFrizzantinoAmabile/nnj), a PyTorch library that gives Jacobians and
Jacobian products (jvp, vjp, jmp, mjp, jmjTp, jTmjp) of neural-network modules, log-likelihoods
built on them, and two helper functions.

## What is modelled and how

* **Scalars** (`Scalar.v`).  The model is written over any type `K` with a record of operations
  (`Num K`: 0, 1, +, *, -, /, <, exp, ln, sin, cos, tanh, sqrt).  Algebraic theorems assume only
  that the operations satisfy the laws of a commutative ring (`CRing K`, a visible hypothesis with
  instances for Z and R).  Analytic theorems are about `K = R` (Coq's reals).
* **Tensors** (`Tensor.v`, `Conv.v`): a shape (`list nat`) and row-major data (`list K`).  The torch
  operations the library uses are executable functions that raise (`Raise e`) where torch raises:
  `einsum` (its string is parsed; size checks and size-1 broadcasting), `reshape` (with -1), `cat`,
  slicing (with Python's clamping), `transpose`, `movedim`, `flip`, `diag_embed`, `diagonal`,
  broadcasting `+ - * /`, `conv2d`, `conv_transpose2d`, nearest up-sampling, `max_pool2d` with
  indices, indexed reads and writes, `vmap` of a two-argument function.
* **Layers** (`Abstract.v`, `Simple.v`, `LinearLayer.v`, `ConvLayer.v`, `PoolLayer.v`): one function
  per method, branch by branch, each with the file and lines of `/repo` it models.
* **Module tree and hidden state** (`Module.v`): a tree `module` (layers, parameters, settings) and,
  separately, the mutable attributes (`Sequential.feature_maps`, `MaxPool2d.idx`) as a tree `st`.
  Every method is a function `module -> st -> arguments -> st * (result or exception)`; a call that
  raises still returns the state it had written by then, as in Python.  Histories of calls
  (`Calls.v`) are lists of such calls.
* **Layer objects** (`Objects.v`): a second model of the same methods in which every position of the tree
  carries the identity of its object, the mutable attributes live in one heap indexed by identities, and
  calls run the forward hooks registered on the object.  A layer object may then occur at several positions,
  and calls on a child behind its parent's back are calls that leave an arbitrary heap.  For networks of
  distinct objects the two models agree (`C55_products_partial`, `C55_distinct`).
* **Constructors** (`Build.v`): from the arguments a user writes to the modules, with the exceptions of the constructors.
* **Edits** (`Edit.v`): a Sequential whose layers are appended, inserted, deleted or replaced after construction.
* **Slices** (`Slice.v`): any number of Sequentials over ranges of one list of layer objects, with the hooks of each on its layers;
  programs that make slices, call them and set weights in any order (`SliceProg.v`).
* **Likelihoods** (`LogLik.v`): constructor, forward, gradient, ggn of the three classes.
* **Utilities** (`Utils.v`): `convert_to_nnj` (on a description of torch models) and
  `invert_block_diagonal`.  `cholesky_inverse` is computed by forward substitution.
* **Storages** (`Storage.v`): a third model of the same methods, in which a tensor is a reference to a storage
  with the position of each of its entries, views share storages, and `+=` writes in place.  `StorageMain.v`
  proves that it refines `Module.v` for any sharing (C59), and what results and stored feature maps share
  (C60, C61).
* **Worked example** (`Notebook.v`): the network, training step, Laplace approximation and sampling of
  `UNet.ipynb`.
* **Dtypes** (`Dtype.v`): a fourth model of the same methods, in which a tensor is its dtype and the coarsest
  dtype its entries have passed through (C65, C66; specification in `DtypeSpec.v`).
* **Specifications** are separate files that use none of the model's methods: `Spec.v` and
  `SpecQ.v` (batched matrix algebra, symmetry, positivity), `Smooth.v` (what a derivative along
  curves is), `DiagSpec.v` (the layer-by-layer diagonal approximation, from each layer's jacobian),
  `BatchSpec.v` (selecting samples), `LikSpec.v` and `NegSpec.v` (log densities, Hessians, sign),
  `UtilSpec.v`, `HooksSpec.v`, `RankSpec.v`, `ImgSpec.v`, `EditSpec.v`, `BuildSpec.v`, `FwdSpec.v` (entrywise forward formulas).  `Domain.v` says which
  networks accept which sample shapes (`typed`), which implement forward products (`fwdable`), and
  how weight-wise metrics are laid out.  Derivatives are the standard library's `derivable_pt_lim`.
* **Property theorems** are in the files `PropC*.v`, each closed by one lemma and followed by
  `Print Assumptions` and by a concrete case (an `Example`) that meets the hypotheses.

## Not modelled

* Floating point: rounding, overflow, infinities, NaN; dtypes outside `Dtype.v`; devices; autograd graphs.
* Aliasing outside `Storage.v`: in the other models all tensors are values.  The tensors that
  `convert_to_nnj` shares with the torch model are copies in every model.  `Storage.v` does not model strides
  (whether a reshape is a view is arbitrary) and keeps parameters apart from the other storages.
* Constructors given negative numbers or floats.
* Edits of a Sequential inside another one; slices with a step and slices of edited networks (`Slice.v`).
* `torch.nn.Module` features such as `.to`, `.train`, state dicts, user hooks.
* `Upsample` modes other
  than nearest and (as a layer on its own, `UpModes.v`) bilinear, and its `size=` argument; a pooling window that lies entirely in the padding (torch
  returns -inf; the model raises); `pool_jmp`'s index broadcasting of length 1; a zero on the diagonal
  in `cholesky_inverse`; `cholesky_inverse` on inputs LAPACK rejects.
* `None` as an intermediate vector inside `Sequential.vjp` raises at once in the model.
* `nnj/__init__.py`, `setup.py`, the tests, `benchmarks/` beyond `models.py` and `ggn/nnj.py` (the scripts for the other libraries are outside nnj) and the README beyond its example (`Bench.v`).
* Repeated positions in an indexed write: torch leaves the result unspecified, the model lets the
  last write win (as on CPU).  Only C31's refutation depends on this.
* Timing, memory, the cost of recomputing `val`.

## Trusted base

* Coq 8.16.1's kernel (and `vm_compute`, used for examples and witnesses).
* That the definitions of `Tensor.v` and `Conv.v` describe torch's functions, and that the model files
  describe the Python: this is by reading; every definition cites its lines.  C49 checks the forward
  functions against independent entrywise formulas.
* The axioms that `Print Assumptions` lists.  No axiom is declared in this development.

`Print Assumptions` answers "Closed under the global context" for 259 theorems:

C01_vjp_input, C02_vjp_weight, C03_mjp_input, C03_mjp_weight, C04_jvp_input, C04_jvp_weight, C05_jmp_input,
C05_jmp_weight, C06_empty_refuted, C06_jTmjp_input, C07_jTmjp_weight, C07_jTmjp_weight_diag, C08_jmjTp_input,
C09_blocks_of_jTmjp, C09_jmjTp_weight, C09_jmjTp_weight_blocks, C12_forward, C12_jTmjp_input,
C12_jTmjp_weight, C12_jacobian, C12_jmjTp_input, C12_jmjTp_weight, C12_jmp, C12_jvp, C12_mjp, C12_vjp,
C13_adjoint_input, C13_adjoint_weight, C13_assoc_input, C13_assoc_weight, C14_jTmjp, C14_jmjTp, C14_jmp,
C14_jvp, C14_mjp, C14_vjp, C15_jTmjp_partial, C15_jmjTp_partial, C15_jmp_partial, C15_mjp_partial,
C15_refuted_conv_jTmjp, C15_refuted_flatten, C15_refuted_l2norm, C15_refuted_seq_jmjTp,
C15_refuted_skip_jTmjp, C15_refuted_skip_jmjTp, C16_history, C17_partial, C17_refuted, C17_refuted_pool,
C18_refuted, C18_val, C19_custom_refuted, C19_forward, C19_forward_stack, C19_jTmjp, C19_jTmjp_approx,
C19_jacobian, C19_jmjTp_approx, C19_jmjTp_input, C19_jmjTp_weight, C19_jmp, C19_jvp, C19_mjp, C19_stack,
C19_vjp, C19_vjp_stack, C20_exact_back, C20_exact_forth, C20_jTmjp_input, C20_jTmjp_weight, C20_jmjTp_input,
C20_jmjTp_weight, C21_symmetric_jTmjp_input, C21_symmetric_jTmjp_weight, C21_symmetric_jmjTp_input,
C21_symmetric_jmjTp_weight, C22_forward_partial, C22_jTmjp, C22_jacobian_partial, C22_jmjTp_partial,
C22_refuted, C22_reverse, C23_extra_ignored, C23_function_of_weight, C23_get_set, C23_no_parameters,
C23_set_get, C23_too_short, C23_typed, C24_count, C24_count_layers, C24_widths, C25_activations, C25_jTmjp,
C25_jmp, C25_jvp, C25_mjp, C25_none, C29_conv_products, C29_paths, C30_stride_rejected, C30_weight_products,
C31_pool_partial, C31_refuted_overlap, C32_upsample_products, C33_exact_modes, C33_jTmjp_modes,
C33_jTmjp_partial, C33_products, C33_refuted_transpose, C34_partial, C34_refuted, C35_partial, C35_refuted,
C40_refuted_default, C41_partial, C41_refuted_bias, C41_refuted_nested, C41_refuted_upsample,
C43_forward_partial, C43_refuted, C43_reverse_partial, C44_function, C44_state, C45_exact, C45_like_zeros,
C45_refuted_modes, C46_refuted_fractional, C47_forward, C47_jmp, C47_jmp_val, C47_jvp, C47_reverse, C49_conv,
C49_flatten, C49_linear, C49_reshape, C49_reshape_infer, C49_sequential, C49_skip, C49_skip_rejected,
C49_upsample, C50_domain, C50_jmjTp_input, C50_jmjTp_weight, C50_jmp_input, C50_jmp_weight, C50_jvp_exception,
C50_jvp_input, C50_jvp_weight, C50_skip, C51_pool_jmp_partial, C51_refuted, C51_rows, C53_jmjTp_input,
C53_jmjTp_weight, C53_jmjTp_weight_blocks, C53_jmp_input, C53_jmp_weight, C53_jvp_input, C53_jvp_weight,
C55_after_partial, C55_distinct, C55_forward, C55_jmp, C55_jvp, C55_products_partial, C55_refuted_activation,
C55_refuted_activation_input, C55_refuted_block, C55_refuted_nested, C55_refuted_pool, C56_refuted_tied,
C56_size, C57_fills_original, C57_forward, C57_jmp, C57_jvp, C57_refuted, C57_reverse_raises, C57_weight,
C58_unet, C59_frame, C59_session, C59_values, C60_apart, C60_argument_refuted, C60_parameter_refuted,
C60_result_partial, C61_call, C61_input_refuted, C61_kept, C61_output_refuted, C61_program_partial, C64_exact,
C64_nonsquare, C64_readme_refuted, C64_refuted, C64_rejected_partial, C65_backward_partial, C65_exact,
C65_refuted, C65_uniform_partial, C66_exact, C66_partial, C66_refuted, C67_affine, C67_backward_partial,
C67_forward, C67_forward_partial, C67_one, C67_refuted, C67_rejected, C67_rejected_none, C67_rejected_vector,
C67_wrong_backward, C67_wrong_forward, C68_flatten, C68_forward_partial, C68_input, C68_refuted, C68_skip,
C68_upsample, C68_weight_partial, C68_weight_refuted, C69_append, C69_forward_any, C69_forward_partial,
C69_forward_weight, C69_lists, C69_refuted_append, C69_refuted_insert, C69_removed, C70_batches,
C70_constructors, C70_conv, C70_exact, C70_flatten, C70_foreign, C70_linear, C70_parameters, C70_products,
C70_reshape, C70_sequential, C70_shape_only, C70_skip, C70_upsample, C71_forward, C71_outputs, C71_products,
C71_program, C71_program_refuted_set, C71_program_set, C71_program_val_partial, C71_refuted, C71_refuted_pool,
C71_val_partial, C71_weights.

It lists the standard library axioms `ClassicalDedekindReals.sig_forall_dec`, `ClassicalDedekindReals.sig_not_dec`, `Classical_Prop.classic`, `FunctionalExtensionality.functional_extensionality_dep` for the following 70 theorems, which are about the real numbers:

C10_input_derivative, C11_joint_derivative, C11_weight_derivative, C20_nonneg_back, C20_nonneg_forth,
C21_diagonal_psd, C21_psd_jTmjp_input, C21_psd_jTmjp_weight, C21_psd_jmjTp_input, C21_psd_jmjTp_weight,
C26_activations, C26_relu_at_zero, C26_truncexp, C27_error, C27_l2norm_partial, C27_l2norm_refuted,
C28_softplus, C36_forward, C36_input, C36_weight, C37_forward, C37_input, C37_weight, C38_exact_target,
C38_forward, C38_input_error, C38_input_partial, C38_refuted_target, C38_weight_error, C38_weight_partial,
C39_approx_partial, C39_input_partial, C39_refuted_approx, C39_refuted_full, C39_refuted_groups,
C39_weight_partial, C40_none, C40_target_rejected, C40_values_partial, C41_refuted_settings,
C42_exact_partial, C42_factors_partial, C42_refuted, C46_fractional_partial, C48_approx, C48_input,
C48_weight, C49_activation, C49_l2norm, C49_maxpool, C52_average, C52_forward, C52_ggn_approx, C52_ggn_input,
C52_ggn_weight, C52_gradient, C52_split_forward, C52_split_gradient, C54_bilinear_partial, C54_refuted,
C58_laplace, C58_refuted_mean, C58_sampled_weight, C58_training_step, C62_ggn, C62_linear_model, C63_gradient,
C70_activation, C70_l2norm, C70_pool.

## How each property is treated

| id | model | proof |
|----|-------|-------|
| C01-C03 | all layers, Sequential and SkipConnection with state | per-layer equation (`Leaf*.v`), then induction over the tree with the invariant "the stored feature maps are those of x" (`Tree*.v`) |
| C04, C05 | forward-mode methods | same; wrt weight the SkipConnections must contain a parameter |
| C06, C07 | jTmjp, four modes | same; blocks laid out as the tree; no empty Sequential (`C06_empty_refuted`) |
| C08, C09 | jmjTp, four modes | same |
| C10, C11 | forward over R, set_weight | derivative along curves per layer (`DerivLeaf.v`), chain rule by induction (`Deriv.v`) |
| C12 | splicing a nested Sequential | two networks with equal functions and Jacobians agree in every product (`Nest.v`, `Splice.v`) |
| C13, C14, C21 | - | algebra over sums from C01-C09 |
| C15 | the None branches | per branch; refutations where the code fails |
| C16-C18, C43, C44 | histories of calls | invariants of the hidden state (`StateCoh.v`, `StateSim.v`, `Frozen.v`, `History.v`); refutations |
| C19 | - | every product commutes with any selection of samples (`Batch*.v`) |
| C20, C34 | diag_backprop | induction over the tree against `DiagSpec.v`; the README call is refuted for every model |
| C22-C24 | parameters | structural induction; refutation for parameter-free SkipConnections |
| C25-C28 | activations, L2Norm, Softplus | einsum equations, stdlib derivatives; refutation for L2Norm with eps > 0 |
| C29, C30, C45 | Conv2d | index arithmetic against the derivative written by pixel; outside the supported settings the weight products raise; refutation for the padding modes, and exactly when they are right |
| C31 | MaxPool2d | right exactly when no entry is the maximum of two windows |
| C32, C46, C54 | Upsample | index arithmetic; for fractional factors and for bilinear mode (`UpModes.v`) forward is linear in every sample, so a matrix is its derivative iff it has the coefficients of forward (`LinDeriv.v`), which decides when the returned matrix is right |
| C33 | AbstractJacobian over an arbitrary jacobian | einsum equations; refutation of three modes of jTmjp, which are right exactly for symmetric jacobians |
| C35, C40 | option handling | case analysis, refutations |
| C36-C39, C48 | likelihoods | C10/C11 composed with scalar calculus; Hessians and their sign |
| C41 | torch-side layers and the conversion | induction; refutations |
| C42 | nested blocks, triangular inverse | induction on the substitution; refutation |
| C47 | add_hooks=False | simulation between the two trees |
| C49 | forward of each layer | entrywise formulas |
| C50 | forward products of trees with Conv2d, Upsample, MaxPool2d or a parameter-free SkipConnection | induction on the position of the layer; no value is ever returned |
| C51 | MaxPool2d.jmp | index arithmetic; refutation for non-square matrices |
| C52 | likelihoods on mini-batches | C19 applied to the residual and the Hessian of the outputs |
| C53 | forward products that return are right | the inductions of C04, C05 and C09 in the form "if it returns then", plus C50 for the layers that raise |
| C55, C56 | shared layer objects (`Objects.v`) | simulation between the heap model and the tree model: a relation between heap and tree state, with a frame lemma for what a call may write; refutations for each kind of harmful sharing |
| C57 | deep copies (`Objects.v`: the copy keeps the hooks of the original) | frame lemma: the feature maps of the copy hold the input only, so the backward loop stops at its first layer |
| C58 | the cells of UNet.ipynb (`Notebook.v`) | C11/C36, C20, C23 and C34 applied to the script; the U-Net typed for symbolic sizes; an image and weights at which all its pooling maxima are unique (`UNetWitness.v`) |
| C59 | storages, views and in-place additions (`Storage.v`) | refinement: every method of the storage model reads as `Module.v` and keeps all storages that existed before, by induction on the network; invariant: the accumulator of a `+=` is a new storage that no feature map, argument or list entry refers to; induction on sessions |
| C60, C61 | same model | the refinement also tracks where the storages of results and feature maps come from; induction on programs with in-place operations of the caller; witnesses by computation |
| C62 | benchmarks/ggn/nnj.py and benchmarks/models.py (`Bench.v`) | C41 (conversion), C11 and C19 composed; the derivative is stated on the torch layers |
| C63 | the gradient of the README's example (`Bench.v`) | C11 and C36 applied to the squared loss, derivative of a sum of squares |
| C64 | vectors of any number of columns in vjp | the accepted numbers of columns as a function of the network (`Width.v`), by induction over the tree; witnesses by computation; matrices that are not square in the full-to-diagonal mode (`C64_nonsquare`) |
| C65 | the dtypes of all results (`Dtype.v`) | invariant "dtype d, never rounded to a coarser one" through every method, by induction over the tree; exact outcome of vjp; witnesses by computation |
| C66 | the rounding of gradients (`Dtype.v`) | the same induction with the complementary invariant for the convolutions that copy into float32 |
| C67 | `Linear` on inputs of any rank (`LinearLayer.v`, specification in `RankSpec.v`) | the block matrix of the map on whole samples; each product by cases on the number of positions; rejection from the rank checks |
| C68 | images of rank 3: torch's rules in `Tensor.v`, `Conv.v`, `ConvLayer.v` (specification in `ImgSpec.v`) | forward by induction over the tree; raising by induction on where the image layer sits; witnesses by computation |
| C69 | editing a Sequential (`Edit.v`: current layers, the constructor's list, hooks; programs in `EditSpec.v`) | induction over the marked list of layers and over programs; state independence from C16; witnesses by computation |
| C70 | the constructors (`Build.v`; supported settings, acceptance and fit in `BuildSpec.v`) | induction over the expression for the constructors; over the module for acceptance (layer by layer, from the checks that forward makes); totality of `typed` for the converse |
| C71 | a Sequential and its slices (`Slice.v`: shared layers, one list of feature maps each) | the feature maps that a call appends (`C71_outputs`), an invariant over sequences of calls, and over programs (`SliceProg.v`), for saved values; the specification is the answer of a separate network; witnesses by computation |

## What the proofs found in the code

Each item names the theorem that shows it.

* `AbstractJacobian.jTmjp` computes J M J instead of J^T M J in three of its four modes, so custom layers and
  `L2Norm` rely on a symmetric jacobian (`C33_refuted_transpose`).
* `L2Norm.jacobian` is the derivative only for eps = 0 (`C27_l2norm_refuted`).
* `SkipConnection.jacobian` called with `val` hands the whole value to the inner network (`C18_refuted`).
* A `jvp`/`jmp` on a Sequential appends to `feature_maps` without clearing them: the list grows
  (`C43_refuted`), and a saved `val` is then used with the wrong feature maps (`C17_refuted`).
* `MaxPool2d` backward products lose contributions when windows overlap (`C31_refuted_overlap`).
* `Conv2d` with circular, replicate or reflect padding returns wrong products (`C45_refuted_modes`): those of zero padding
  (`C45_like_zeros`), right only under the conditions of `C45_exact`.
* `Upsample` with a fractional factor raises or returns wrong products, except on one pixel (`C46_fractional_partial`).
* `Upsample` in bilinear mode silently returns the products of nearest mode (`C54_bilinear_partial`).
* `MaxPool2d.jmp` raises unless the matrix has as many columns as the input has entries (`C51_refuted`).
* The README's gradient is right, but with targets of shape (b) for a network with one output per sample it
  returns a vector with b times too many entries instead of raising (`C64_readme_refuted`).
* `Linear` works on samples with several positions (a sequence of feature vectors), but the products do not: most raise,
  and with exactly one output or input they return a result for one position (`C67_wrong_backward`, `C67_wrong_forward`).
* On one image without a batch dimension, networks of `Conv2d`, `MaxPool2d` and activations agree with the batched call
  (`C68_forward_partial`), but `Upsample` only widens it, `SkipConnection` stacks heights and `Flatten` takes the channels
  for samples, silently (`C68_refuted`).  Most products raise (`C68_input`, `C68_weight_partial`), but
  MaxPool2d - Flatten - Linear returns one row per channel (`C68_weight_refuted`).
* The README call `jTmjp(..., None, to_diag=True, diag_backprop=True)` raises for every model (`C34_refuted`).
* `jTmjp` and `jmjTp` of a Sequential accept any `wrt` string (`C35_refuted`).
* `matrix=None` raises in several layers (`C15_refuted_*`); a parameter-free SkipConnection raises wrt weight
  (`C22_refuted`); an empty Sequential ignores the diagonal flags (`C06_empty_refuted`).
* The default `aggregate_batch="return all"` is rejected by the constructor (`C40_refuted_default`);
  `ggn` raises for full metrics wrt weight on a Sequential, for several groups of classes, and for some
  combinations with approx (`C39_refuted_*`); `LogBernoulli.gradient` assumes targets that sum to 1
  (`C38_refuted_target`).
* `convert_to_nnj` raises without a bias, drops most layer settings and replaces a nested Sequential by the
  identity (`C41_refuted_*`).
* An activation object used twice in a `Sequential` (`act = nnj.ReLU(); nnj.Sequential(l1, act, l2, act, l3)`)
  registers two hooks, so two feature maps are stored per use and the backward products read the wrong ones,
  silently; likewise a shared MaxPool2d or block (`C55_refuted_*`).  With tied layers `get_weight()` is shorter
  than the gradient (`C56_refuted_tied`).
* A Sequential edited after construction (`model.append(...)`, `insert`): forward, jvp and jmp use the new layers, but vjp,
  mjp, jacobian, jTmjp and jmjTp silently go on with the constructor's list (`C69_append`, `C69_refuted_*`); after `del` or
  item assignment they raise (`C69_removed`).
* A slice `model[:k]` shares its layers with the model: calling it between `val = model(x)` and a backward product with that
  `val` silently gives the product at the other input if a nested network or a MaxPool2d is shared (`C71_refuted*`).
* The hooks are lambdas over `self`, so those of `copy.deepcopy(model)` write to the original: every backward
  product of the copy raises IndexError, and the feature maps of the original grow (`C57_reverse_raises`,
  `C57_fills_original`).
* `UNet.ipynb` samples weights `std * eps` without adding the trained weights (`C58_sampled_weight`,
  `C58_refuted_mean`).
* `Linear.jacobian(x, wrt="input")` is an expanded view of the weight: for batch size 1, changing the result in
  place (under `torch.no_grad()`) changes the weight (`C60_parameter_refuted`).  The stored feature maps are the input and the
  output of forward themselves, so changing either in place changes later products called with `val`
  (`C61_input_refuted`, `C61_output_refuted`).
* Constants are created without `dtype=`: in a float64 model `MaxPool2d` and `Upsample` backward products and
  `Conv2d.jacobian` raise, and in a float16 model those of `L2Norm` (`C65_refuted`, `C65_exact`); `Conv2d` with
  `use_vmap_for_backprop=False` silently rounds float64 gradients to float32 (`C66_refuted`, `C66_exact`).
* `invert_block_diagonal` reads the blocks as Cholesky factors (`C42_refuted`).

## Statements narrowed while proving

The wording of these properties names the domain on which the claim holds; outside it the calls raise or are
wrong, and a theorem says so.

* C04, C05 (forward products): layers that implement them, and wrt weight no parameter-free SkipConnection.
  Everything else raises (`C50_*`), so the domain is exact (`C50_domain`).
* C06, C07: no empty Sequential inside (`C06_empty_refuted`); user-defined layers with symmetric jacobians
  (`C33_refuted_transpose`); C20: the latter.
* C10: points where every activation is differentiable and every pooling maximum is unique.
* C19: user-defined layers that treat the samples independently (`C19_custom_refuted`).

## Testing the theorems against wrong programs

`seeded/LOG.jsonl` has one line per attempt.  A definition of the model is edited like a plausible
programming error in a scratch copy.  Two things are then recorded.

* *Proofs*: the copy is rebuilt.  A proof that no longer goes through is replaced by a hole, and the build
  continues; a property theorem counts as failed when its proof depends on a hole.
* *Statements* (`statements_false`): the model is also executed over floating-point numbers (a `Num` instance
  on Coq's primitive floats, outside this repository) and instances of the properties are evaluated on small
  networks: products against the returned jacobian, jacobians against finite differences, likelihood gradients
  and Hessians against finite differences, batches against permuted batches.  This shows that a statement has
  become false, and not only that a proof script broke.  On the unmodified model all instances are true.

Controls (edits that change no behaviour) are included and marked.

An attempt that no theorem noticed led to new theorems: `s12` to `C51_rows`, `x02` to `C64_nonsquare`, and `o09` (SkipConnection builds a
plain Sequential) to `C70_skip`, `C70_sequential` and the other theorems of C70 that say what a constructed layer computes.
