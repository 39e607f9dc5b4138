{
 "claims": [
  {
   "property": "C01",
   "status": "proved",
   "theorems": [
    "C01_vjp_input"
   ],
   "note": "All typed module trees, any batch, any hidden state."
  },
  {
   "property": "C02",
   "status": "proved",
   "theorems": [
    "C02_vjp_weight"
   ],
   "note": ""
  },
  {
   "property": "C03",
   "status": "proved",
   "theorems": [
    "C03_mjp_input",
    "C03_mjp_weight"
   ],
   "note": ""
  },
  {
   "property": "C04",
   "status": "proved",
   "theorems": [
    "C04_jvp_input",
    "C04_jvp_weight"
   ],
   "note": "Weight part for trees whose SkipConnections contain a parameter; C50_skip and C50_domain show that these hypotheses are exactly the networks on which the call returns."
  },
  {
   "property": "C05",
   "status": "proved",
   "theorems": [
    "C05_jmp_input",
    "C05_jmp_weight"
   ],
   "note": "As C04."
  },
  {
   "property": "C06",
   "status": "proved",
   "theorems": [
    "C06_jTmjp_input",
    "C06_empty_refuted"
   ],
   "note": "Custom layers must have a symmetric jacobian (see C33); no empty Sequential (refuted for those)."
  },
  {
   "property": "C07",
   "status": "proved",
   "theorems": [
    "C07_jTmjp_weight",
    "C07_jTmjp_weight_diag"
   ],
   "note": ""
  },
  {
   "property": "C08",
   "status": "proved",
   "theorems": [
    "C08_jmjTp_input"
   ],
   "note": ""
  },
  {
   "property": "C09",
   "status": "proved",
   "theorems": [
    "C09_jmjTp_weight",
    "C09_jmjTp_weight_blocks",
    "C09_blocks_of_jTmjp"
   ],
   "note": ""
  },
  {
   "property": "C10",
   "status": "proved",
   "theorems": [
    "C10_input_derivative"
   ],
   "note": "derivative = velocity of outputs along every differentiable curve of inputs; over the stdlib reals"
  },
  {
   "property": "C11",
   "status": "proved",
   "theorems": [
    "C11_weight_derivative",
    "C11_joint_derivative"
   ],
   "note": ""
  },
  {
   "property": "C12",
   "status": "proved",
   "theorems": [
    "C12_forward",
    "C12_jacobian",
    "C12_vjp",
    "C12_mjp",
    "C12_jvp",
    "C12_jmp",
    "C12_jTmjp_input",
    "C12_jTmjp_weight",
    "C12_jmjTp_input",
    "C12_jmjTp_weight"
   ],
   "note": "Nested Sequential at any position of the outer one; jTmjp wrt weight returns the same tensors in the same order, nested differently."
  },
  {
   "property": "C13",
   "status": "proved",
   "theorems": [
    "C13_adjoint_input",
    "C13_adjoint_weight",
    "C13_assoc_input",
    "C13_assoc_weight"
   ],
   "note": ""
  },
  {
   "property": "C14",
   "status": "proved",
   "theorems": [
    "C14_vjp",
    "C14_mjp",
    "C14_jvp",
    "C14_jmp",
    "C14_jTmjp",
    "C14_jmjTp"
   ],
   "note": ""
  },
  {
   "property": "C15",
   "status": "partial",
   "theorems": [
    "C15_mjp_partial",
    "C15_jmp_partial",
    "C15_jTmjp_partial",
    "C15_jmjTp_partial",
    "C15_refuted_flatten",
    "C15_refuted_l2norm",
    "C15_refuted_skip_jmjTp",
    "C15_refuted_skip_jTmjp",
    "C15_refuted_seq_jmjTp",
    "C15_refuted_conv_jTmjp"
   ],
   "note": "True for the modules listed in takes_none/pulls_none/pushes_none; refuted with witnesses for Flatten/Reshape (mjp, jmp), L2Norm and custom layers, SkipConnection (jmjTp; jTmjp on images), Sequential.jmjTp on images, Conv2d.jTmjp unless to_diag."
  },
  {
   "property": "C16",
   "status": "proved",
   "theorems": [
    "C16_history"
   ],
   "note": "Any history, from any state. For a top-level SkipConnection without the calls that ask for the whole jacobian (see C18)."
  },
  {
   "property": "C17",
   "status": "partial",
   "theorems": [
    "C17_partial",
    "C17_refuted",
    "C17_refuted_pool"
   ],
   "note": "True without nested stateful modules; false with a nested Sequential, SkipConnection or MaxPool2d (refutations with witness)."
  },
  {
   "property": "C18",
   "status": "partial",
   "theorems": [
    "C18_val",
    "C18_refuted"
   ],
   "note": "True except SkipConnection.jacobian (and mjp/jmp without a matrix) called with val on the SkipConnection itself (refutation)."
  },
  {
   "property": "C19",
   "status": "proved",
   "theorems": [
    "C19_forward",
    "C19_jacobian",
    "C19_vjp",
    "C19_mjp",
    "C19_jvp",
    "C19_jmp",
    "C19_jTmjp",
    "C19_jmjTp_input",
    "C19_jmjTp_weight",
    "C19_jTmjp_approx",
    "C19_jmjTp_approx",
    "C19_stack",
    "C19_forward_stack",
    "C19_vjp_stack",
    "C19_custom_refuted"
   ],
   "note": "For every selection of samples (any order, with repetition), hence one sample at a time and stacked. User-defined layers must satisfy the same condition themselves (C19_custom_refuted shows this cannot be dropped). Forward products need fwdable layers and, wrt weight, skips with parameters; jTmjp/jmjTp need non-empty Sequentials (see C04-C09). The diagonal approximation (diag_backprop) is covered too."
  },
  {
   "property": "C20",
   "status": "proved",
   "theorems": [
    "C20_jTmjp_input",
    "C20_jTmjp_weight",
    "C20_jmjTp_input",
    "C20_jmjTp_weight",
    "C20_nonneg_back",
    "C20_nonneg_forth",
    "C20_exact_back",
    "C20_exact_forth"
   ],
   "note": "Every typed module tree (not only Sequential), empty Sequentials included; custom layers with a symmetric jacobian (see C33); nonnegativity over the stdlib reals."
  },
  {
   "property": "C21",
   "status": "proved",
   "theorems": [
    "C21_symmetric_jTmjp_input",
    "C21_symmetric_jTmjp_weight",
    "C21_symmetric_jmjTp_input",
    "C21_symmetric_jmjTp_weight",
    "C21_psd_jTmjp_input",
    "C21_psd_jTmjp_weight",
    "C21_psd_jmjTp_input",
    "C21_psd_jmjTp_weight",
    "C21_diagonal_psd"
   ],
   "note": "PSD over the stdlib reals."
  },
  {
   "property": "C22",
   "status": "partial",
   "theorems": [
    "C22_reverse",
    "C22_jTmjp",
    "C22_forward_partial",
    "C22_jacobian_partial",
    "C22_jmjTp_partial",
    "C22_refuted"
   ],
   "note": "Reverse products: every module. Forward products and jacobian: no parameter-free SkipConnection (refuted for it)."
  },
  {
   "property": "C23",
   "status": "proved",
   "theorems": [
    "C23_set_get",
    "C23_get_set",
    "C23_too_short",
    "C23_extra_ignored",
    "C23_function_of_weight",
    "C23_no_parameters",
    "C23_typed"
   ],
   "note": ""
  },
  {
   "property": "C24",
   "status": "proved",
   "theorems": [
    "C24_count",
    "C24_count_layers",
    "C24_widths"
   ],
   "note": ""
  },
  {
   "property": "C25",
   "status": "proved",
   "theorems": [
    "C25_jvp",
    "C25_jmp",
    "C25_mjp",
    "C25_jTmjp",
    "C25_none",
    "C25_activations"
   ],
   "note": "For any jacobian method of a diagonal layer; the hypothesis is proved for all six activations."
  },
  {
   "property": "C26",
   "status": "proved",
   "theorems": [
    "C26_activations",
    "C26_relu_at_zero",
    "C26_truncexp"
   ],
   "note": ""
  },
  {
   "property": "C27",
   "status": "partial",
   "theorems": [
    "C27_l2norm_partial",
    "C27_l2norm_refuted",
    "C27_error"
   ],
   "note": "True for eps = 0 (the partial theorem); false for eps > 0, because jacobian ignores eps in one factor (the refutation). C27_error gives the exact error at every input: jacobian is right exactly at the zero vector."
  },
  {
   "property": "C28",
   "status": "proved",
   "theorems": [
    "C28_softplus"
   ],
   "note": ""
  },
  {
   "property": "C29",
   "status": "proved",
   "theorems": [
    "C29_conv_products",
    "C29_paths"
   ],
   "note": "Derivatives written out by pixel coordinates; all sizes, paddings and both code paths."
  },
  {
   "property": "C30",
   "status": "proved",
   "theorems": [
    "C30_stride_rejected",
    "C30_weight_products"
   ],
   "note": "Dichotomy over every configuration the constructor accepts for which forward returns (zero padding or no padding; the other padding modes are C45)."
  },
  {
   "property": "C31",
   "status": "partial",
   "theorems": [
    "C31_pool_partial",
    "C31_refuted_overlap"
   ],
   "note": "Right exactly when no input entry is the maximum of two windows; refuted for overlapping windows. Disjoint windows are covered with arbitrary nesting by C01-C08."
  },
  {
   "property": "C32",
   "status": "proved",
   "theorems": [
    "C32_upsample_products"
   ],
   "note": "Every integer scale, size and input."
  },
  {
   "property": "C33",
   "status": "partial",
   "theorems": [
    "C33_products",
    "C33_jTmjp_partial",
    "C33_jTmjp_modes",
    "C33_exact_modes",
    "C33_refuted_transpose"
   ],
   "note": "All products for every jacobian except the three diagonal modes of jTmjp, which compute J M J: right for every metric exactly when the jacobian is symmetric (C33_exact_modes), refuted otherwise. Nesting: C01-C08."
  },
  {
   "property": "C34",
   "status": "partial",
   "theorems": [
    "C34_refuted",
    "C34_partial"
   ],
   "note": "False as documented: the call raises AssertionError for every Sequential and every input (C34_refuted is universal). With from_diag=True added it returns the documented result (C34_partial)."
  },
  {
   "property": "C35",
   "status": "partial",
   "theorems": [
    "C35_partial",
    "C35_refuted"
   ],
   "note": "Rejected by vjp, mjp, jvp, jmp, jacobian; accepted by jTmjp and jmjTp (refutation)."
  },
  {
   "property": "C36",
   "status": "proved",
   "theorems": [
    "C36_weight",
    "C36_input",
    "C36_forward"
   ],
   "note": "Over the stdlib reals, every typed network at a smooth point, every target."
  },
  {
   "property": "C37",
   "status": "proved",
   "theorems": [
    "C37_weight",
    "C37_input",
    "C37_forward"
   ],
   "note": "Over the stdlib reals, every typed network at a smooth point, every target."
  },
  {
   "property": "C38",
   "status": "partial",
   "theorems": [
    "C38_weight_partial",
    "C38_input_partial",
    "C38_forward",
    "C38_refuted_target",
    "C38_weight_error",
    "C38_input_error",
    "C38_exact_target"
   ],
   "note": "True for targets whose groups of classes sum to 1; refuted for the target (0, 0). C38_weight_error, C38_input_error and C38_exact_target: the exact error, and right exactly for such targets (when the jacobian rows are independent)."
  },
  {
   "property": "C39",
   "status": "partial",
   "theorems": [
    "C39_input_partial",
    "C39_weight_partial",
    "C39_approx_partial",
    "C39_refuted_full",
    "C39_refuted_groups",
    "C39_refuted_approx"
   ],
   "note": "J^T H J proved wrt input (both metric shapes), wrt weight with metric_shape diag or for a single layer; approx is the approximation of C20. The other combinations raise: full on any Sequential, LogBernoulli with several groups, approx with LogBernoulli or full (universal refutations)."
  },
  {
   "property": "C40",
   "status": "partial",
   "theorems": [
    "C40_values_partial",
    "C40_refuted_default",
    "C40_none",
    "C40_target_rejected"
   ],
   "note": "sum and average proved; the default \"return all\" raises in the constructor for every other argument."
  },
  {
   "property": "C41",
   "status": "partial",
   "theorems": [
    "C41_partial",
    "C41_refuted_bias",
    "C41_refuted_nested",
    "C41_refuted_upsample",
    "C41_refuted_settings"
   ],
   "note": "Proved for layers with a bias whose settings other than the kernel size are the defaults. Refuted otherwise: no bias raises, nested Sequential becomes the identity, Upsample raises, conv padding, pool stride and Softplus beta are dropped."
  },
  {
   "property": "C42",
   "status": "partial",
   "theorems": [
    "C42_factors_partial",
    "C42_exact_partial",
    "C42_refuted"
   ],
   "note": "Blocks are read as Cholesky factors C: the result holds the inverse of C C^T for every nesting. A block A is inverted iff A = tril(A) tril(A)^T; refuted for every 1x1 block other than 1."
  },
  {
   "property": "C43",
   "status": "partial",
   "theorems": [
    "C43_reverse_partial",
    "C43_forward_partial",
    "C43_refuted"
   ],
   "note": "True for forward and reverse-mode calls, and restored by any forward; false for repeated jvp (refutation: n calls leave n tensors)."
  },
  {
   "property": "C44",
   "status": "proved",
   "theorems": [
    "C44_function",
    "C44_state"
   ],
   "note": "Immutability of parameters is by construction of the model: no product method assigns to a parameter."
  },
  {
   "property": "C45",
   "status": "partial",
   "theorems": [
    "C45_refuted_modes",
    "C45_like_zeros",
    "C45_exact",
    "C29_conv_products",
    "C30_weight_products"
   ],
   "note": "Proved for zero padding and for no padding (C29, C30); refuted for circular, replicate and reflect padding. C45_like_zeros and C45_exact: the products are those of zero padding, and exactly when they are right."
  },
  {
   "property": "C46",
   "status": "partial",
   "theorems": [
    "C46_refuted_fractional",
    "C46_fractional_partial",
    "C32_upsample_products"
   ],
   "note": "Proved for integer scale factors (C32). For every other factor: exactly when the products raise, and that what they return otherwise is the derivative only for images of one pixel (C46_fractional_partial); 5/2 is a witness."
  },
  {
   "property": "C47",
   "status": "proved",
   "theorems": [
    "C47_forward",
    "C47_jvp",
    "C47_jmp",
    "C47_jmp_val",
    "C47_reverse"
   ],
   "note": "Every tree obtained by switching hooks off anywhere; the reverse products of a non-empty Sequential without hooks raise AttributeError."
  },
  {
   "property": "C48",
   "status": "proved",
   "theorems": [
    "C48_input",
    "C48_weight",
    "C48_approx"
   ],
   "note": "Over the stdlib reals, for every call that returns (C39 says which raise)."
  },
  {
   "property": "C49",
   "status": "proved",
   "theorems": [
    "C49_maxpool",
    "C49_linear",
    "C49_conv",
    "C49_upsample",
    "C49_flatten",
    "C49_reshape",
    "C49_reshape_infer",
    "C49_activation",
    "C49_l2norm",
    "C49_sequential",
    "C49_skip",
    "C49_skip_rejected"
   ],
   "note": "Layers inherited from torch are modelled by the model files Conv.v, Simple.v and LinearLayer.v; the theorems check those definitions against independent entrywise formulas. Conv2d: zero padding (the other modes are C45). Upsample: integer factors. Softplus, activations, L2Norm and MaxPool2d over the stdlib reals."
  },
  {
   "property": "C50",
   "status": "proved",
   "theorems": [
    "C50_jvp_input",
    "C50_jvp_weight",
    "C50_jmp_input",
    "C50_jmp_weight",
    "C50_jmjTp_input",
    "C50_jmjTp_weight",
    "C50_jvp_exception",
    "C50_skip",
    "C50_domain"
   ],
   "note": "Any module tree, with no typing hypothesis except where the exception class or a SkipConnection is concerned. jmp wrt input assumes that user-defined layers return a jacobian."
  },
  {
   "property": "C51",
   "status": "partial",
   "theorems": [
    "C51_pool_jmp_partial",
    "C51_rows",
    "C51_refuted"
   ],
   "note": "Proved for matrices with as many columns as the input has entries; every other number of columns raises RuntimeError (in the same theorem, and C51_refuted)."
  },
  {
   "property": "C52",
   "status": "proved",
   "theorems": [
    "C52_forward",
    "C52_gradient",
    "C52_ggn_input",
    "C52_ggn_weight",
    "C52_ggn_approx",
    "C52_split_forward",
    "C52_split_gradient",
    "C52_average"
   ],
   "note": "Over the stdlib reals. ggn: the calls that return (C39 says which raise). User-defined layers must treat samples independently (C19_custom_refuted)."
  },
  {
   "property": "C53",
   "status": "proved",
   "theorems": [
    "C53_jvp_input",
    "C53_jvp_weight",
    "C53_jmp_input",
    "C53_jmp_weight",
    "C53_jmjTp_input",
    "C53_jmjTp_weight",
    "C53_jmjTp_weight_blocks"
   ],
   "note": "Partial correctness for every typed network; C50 and C04/C05/C08/C09 say which calls return. jmjTp: the Sequentials in it are not empty (C06_empty_refuted)."
  },
  {
   "property": "C54",
   "status": "partial",
   "theorems": [
    "C54_bilinear_partial",
    "C54_refuted"
   ],
   "note": "Exact: the products are the derivatives iff the factor is 1 or the image is one pixel; otherwise they silently return the products of nearest mode. Over the stdlib reals; mode bicubic is not modelled."
  },
  {
   "property": "C55",
   "status": "partial",
   "theorems": [
    "C55_forward",
    "C55_jvp",
    "C55_jmp",
    "C55_products_partial",
    "C55_after_partial",
    "C55_distinct",
    "C55_refuted_activation",
    "C55_refuted_activation_input",
    "C55_refuted_nested",
    "C55_refuted_block",
    "C55_refuted_pool"
   ],
   "note": "Proved for any sharing: forward, jvp, jmp with a matrix. All other products: proved when no Sequential or MaxPool2d occurs twice and no object occurs twice in, or again below, the list of one Sequential; C55_refuted_* show that each of these conditions is needed."
  },
  {
   "property": "C56",
   "status": "partial",
   "theorems": [
    "C56_size",
    "C56_refuted_tied"
   ],
   "note": "The sizes agree iff no object with parameters occurs twice (exact); C56_refuted_tied is a network with tied layers where they differ."
  },
  {
   "property": "C57",
   "status": "partial",
   "theorems": [
    "C57_forward",
    "C57_jvp",
    "C57_jmp",
    "C57_weight",
    "C57_reverse_raises",
    "C57_fills_original",
    "C57_refuted"
   ],
   "note": "Proved: forward, jvp, jmp with a matrix and get_weight. All other products of a copied Sequential raise, for every network (C57_reverse_raises), and every forward pass of the copy lengthens the feature maps of the original (C57_fills_original)."
  },
  {
   "property": "C58",
   "status": "partial",
   "theorems": [
    "C58_training_step",
    "C58_laplace",
    "C58_unet",
    "C58_sampled_weight",
    "C58_refuted_mean"
   ],
   "note": "Proved: training step, Laplace approximation (every network), the U-Net for every image size divisible by 16 and every number of channels, with the printed parameter count. False: the sampled weights are std * eps, without the mean (C58_sampled_weight, C58_refuted_mean)."
  },
  {
   "property": "C59",
   "status": "proved",
   "theorems": [
    "C59_values",
    "C59_frame",
    "C59_session"
   ],
   "note": "Storage model: all methods, any sharing of storage among arguments, earlier results and feature maps, any choice of which reshapes are views, sessions of any length. Hypothesis: custom layers return a Jacobian for the input."
  },
  {
   "property": "C60",
   "status": "partial",
   "theorems": [
    "C60_result_partial",
    "C60_apart",
    "C60_parameter_refuted",
    "C60_argument_refuted"
   ],
   "note": "Proved: the result of a product shares storage with nothing but the multiplied vector or matrix (wrt input). False as stated: Reshape and Flatten return views of the argument (C60_argument_refuted), and Linear.jacobian for the input with batch size 1 is a view of the weight (C60_parameter_refuted)."
  },
  {
   "property": "C61",
   "status": "partial",
   "theorems": [
    "C61_program_partial",
    "C61_kept",
    "C61_call",
    "C61_output_refuted",
    "C61_input_refuted"
   ],
   "note": "Proved for all programs that leave the inputs x of earlier calls and the outputs of forward alone. False for those two: the model keeps them without copying (C61_output_refuted, C61_input_refuted)."
  },
  {
   "property": "C62",
   "status": "proved",
   "theorems": [
    "C62_ggn",
    "C62_linear_model"
   ],
   "note": "Benchmark script on every torch Sequential of layers the conversion carries over, smooth at the input; benchmarks/models.py for all widths and depths."
  },
  {
   "property": "C63",
   "status": "proved",
   "theorems": [
    "C63_gradient"
   ],
   "note": "Gradient of the README example; the second call of that example is refuted in C34 and C35."
  },
  {
   "property": "C64",
   "status": "partial",
   "theorems": [
    "C64_rejected_partial",
    "C64_exact",
    "C64_refuted",
    "C64_readme_refuted",
    "C64_nonsquare"
   ],
   "note": "False in general: dimensions of size 1 are broadcast and Flatten/Reshape check nothing (C64_refuted, C64_readme_refuted). Proved: rejection for networks without skip connections and one-entry layers, and the exact set of accepted lengths for every network (C64_exact). C64_nonsquare: non-square matrices of which the diagonal is wanted are rejected."
  },
  {
   "property": "C65",
   "status": "partial",
   "theorems": [
    "C65_uniform_partial",
    "C65_backward_partial",
    "C65_exact",
    "C65_refuted"
   ],
   "note": "False in general: several layers create constants of torch default dtype (C65_refuted). Proved: all methods in the default dtype and, in any dtype, for networks without Conv2d, MaxPool2d, Upsample; backward products also with Conv2d under vmap; the exact set of failing networks for vjp (C65_exact)."
  },
  {
   "property": "C66",
   "status": "partial",
   "theorems": [
    "C66_exact",
    "C66_partial",
    "C66_refuted"
   ],
   "note": "False for Conv2d with use_vmap_for_backprop=False outside the default dtype (C66_refuted); exact characterisation for every network (C66_exact)."
  },
  {
   "property": "C67",
   "status": "partial",
   "theorems": [
    "C67_forward",
    "C67_affine",
    "C67_rejected",
    "C67_rejected_none",
    "C67_rejected_vector",
    "C67_backward_partial",
    "C67_forward_partial",
    "C67_one",
    "C67_wrong_backward",
    "C67_wrong_forward",
    "C67_refuted"
   ],
   "note": "Proved: forward on inputs of any rank, rejection of the jacobian and of everything that concerns the parameters, and the products wrt input right or raising. False when there are several positions and the layer has exactly one output (vjp, mjp, jTmjp) or one input (jvp, jmp, jmjTp): a result of the wrong shape is returned silently (C67_wrong_backward, C67_wrong_forward, C67_refuted)."
  },
  {
   "property": "C68",
   "status": "partial",
   "theorems": [
    "C68_forward_partial",
    "C68_upsample",
    "C68_skip",
    "C68_flatten",
    "C68_refuted",
    "C68_input",
    "C68_weight_partial",
    "C68_weight_refuted"
   ],
   "note": "Proved: forward on networks of Conv2d, MaxPool2d and activations; every product wrt input raises when an image layer at any depth is given a tensor that is not a batch of images; reverse products wrt weight likewise unless that layer sees the input and has no parameters. False: Upsample, SkipConnection and Flatten silently compute something else on a single image (C68_refuted), and MaxPool2d - Flatten - Linear answers wrt weight with one row per channel (C68_weight_refuted)."
  },
  {
   "property": "C69",
   "status": "partial",
   "theorems": [
    "C69_forward_partial",
    "C69_forward_any",
    "C69_lists",
    "C69_forward_weight",
    "C69_removed",
    "C69_append",
    "C69_refuted_append",
    "C69_refuted_insert"
   ],
   "note": "Proved: forward, jvp and jmp wrt input after any program of edits and calls; jvp and jmp wrt weight right or AssertionError; all other products raise when an original layer was deleted or replaced (C69_removed). False: after append every reverse product, jmjTp and jacobian silently ignore the appended layers (C69_append, exact), likewise wrong after insert. Edits of a Sequential nested inside the edited one, and slicing, are not modelled."
  },
  {
   "property": "C70",
   "status": "proved",
   "theorems": [
    "C70_constructors",
    "C70_foreign",
    "C70_parameters",
    "C70_sequential",
    "C70_skip",
    "C70_linear",
    "C70_conv",
    "C70_upsample",
    "C70_reshape",
    "C70_flatten",
    "C70_pool",
    "C70_activation",
    "C70_l2norm",
    "C70_shape_only",
    "C70_batches",
    "C70_products",
    "C70_exact"
   ],
   "note": "Constructors as a model of their own (Build.v). C70_exact shows that the hypothesis typed of the other theorems holds exactly when one forward pass returns with every layer given the number of dimensions it documents, for networks with supported settings; C70_settings_case shows that the settings matter. User-defined layers, negative arguments and the size= argument of Upsample are outside the constructor model."
  },
  {
   "property": "C71",
   "status": "partial",
   "theorems": [
    "C71_forward",
    "C71_products",
    "C71_val_partial",
    "C71_refuted",
    "C71_refuted_pool",
    "C71_weights",
    "C71_outputs",
    "C71_program",
    "C71_program_set",
    "C71_program_val_partial",
    "C71_program_refuted_set"
   ],
   "note": "Forward passes and products with val=None hold after any calls (C71_forward, C71_products). A saved val is safe when the common layers keep no state of their own (C71_val_partial); with a nested network or a MaxPool2d in common it is false of the code (C71_refuted, C71_refuted_pool). C71_program and C71_program_val_partial are about programs that make slices, call them and set their weights at any time; setting a weight between saving and using a value mixes the parameters (C71_program_refuted_set). Slices with a step other than 1 are left out."
  }
 ]
}