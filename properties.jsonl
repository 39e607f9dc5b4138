{"id": "C01", "title": "vjp w.r.t. input is the row-vector times the Jacobian", "statement": "For any network built from the library's layers (Linear, Conv2d, activations, Reshape, Flatten, L2Norm, Upsample, non-overlapping MaxPool2d, Sequential, SkipConnection, nested arbitrarily), model.vjp(x, None, v, wrt='input') equals, sample by sample, v times the matrix returned by model.jacobian(x, None, wrt='input').", "quantifier": "every finite nesting of layers with compatible shapes, every batch size >= 1, every input, every parameter value, every vector v of the output size", "why_tests_cant": "The claim is for all network shapes, depths and real inputs; tests compare a handful of fixed architectures on random inputs.", "anchors": ["nnj/sequential.py:Sequential.vjp", "nnj/skipconnection.py:SkipConnection.vjp", "nnj/linear.py:Linear.vjp", "nnj/conv2d.py:Conv2d.vjp", "nnj/maxpool2d.py:MaxPool2d.vjp", "nnj/upsample.py:Upsample.vjp", "nnj/abstract_diagonal_jacobian.py:vjp"]}
{"id": "C02", "title": "vjp w.r.t. weight is the row-vector times the weight Jacobian", "statement": "For the same networks, model.vjp(x, None, v, wrt='weight') equals v times model.jacobian(x, None, wrt='weight') sample by sample, and is None exactly when the network has no parameters.", "quantifier": "every finite nesting of layers with compatible shapes, every batch size >= 1, every input, every parameter value, every v", "why_tests_cant": "Parameter offsets depend on arbitrary nesting; tests fix a few.", "anchors": ["nnj/sequential.py:Sequential.vjp", "nnj/linear.py:Linear.vjp", "nnj/conv2d.py:Conv2d.vjp", "nnj/skipconnection.py:SkipConnection.vjp"]}
{"id": "C03", "title": "mjp is matrix times Jacobian", "statement": "For any such network and any stack of rows M, model.mjp(x, None, M, wrt) equals M times model.jacobian(x, None, wrt) sample by sample, for both values of wrt.", "quantifier": "every finite nesting of layers with compatible shapes, every batch size >= 1, every input, every parameter value, every number of rows and every M", "why_tests_cant": "Universally quantified over networks, row counts and reals.", "anchors": ["nnj/sequential.py:Sequential.mjp", "nnj/linear.py:Linear.mjp", "nnj/conv2d.py:Conv2d.mjp", "nnj/maxpool2d.py:MaxPool2d.mjp", "nnj/upsample.py:Upsample.mjp", "nnj/skipconnection.py:SkipConnection.mjp"]}
{"id": "C04", "title": "jvp is Jacobian times vector", "statement": "For any network of layers that implement forward products (Linear, activations, Reshape, Flatten, L2Norm, user-defined layers, Sequential, SkipConnection), model.jvp(x, val, v, wrt) equals model.jacobian(x, None, wrt) times v sample by sample. With wrt='weight' every SkipConnection of the network must contain a parameter (C50: otherwise the call raises).", "quantifier": "every finite nesting of layers with compatible shapes, every batch size >= 1, every input, every parameter value (forward-capable layers), every tangent v, wrt input and weight", "why_tests_cant": "Universal over networks and tangents.", "anchors": ["nnj/sequential.py:Sequential.jvp", "nnj/linear.py:Linear.jvp", "nnj/skipconnection.py:SkipConnection.jvp", "nnj/abstract_jacobian.py:AbstractJacobian.jvp", "nnj/abstract_diagonal_jacobian.py:jvp"]}
{"id": "C05", "title": "jmp is Jacobian times matrix", "statement": "For the same networks as C04, model.jmp(x, val, M, wrt) equals model.jacobian(x, None, wrt) times M sample by sample; with wrt='weight' every SkipConnection must contain a parameter (C50).", "quantifier": "every finite nesting of layers with compatible shapes, every batch size >= 1, every input, every parameter value (forward-capable layers), every column count and M", "why_tests_cant": "Universal over networks and matrices.", "anchors": ["nnj/sequential.py:Sequential.jmp", "nnj/linear.py:Linear.jmp", "nnj/skipconnection.py:SkipConnection.jmp", "nnj/abstract_jacobian.py:AbstractJacobian.jmp"]}
{"id": "C06", "title": "jTmjp w.r.t. input is the pulled-back metric in all four diagonal modes", "statement": "For any network without empty Sequentials, model.jTmjp(x, None, M, wrt='input', from_diag, to_diag) with diag_backprop=False equals J^T M J where J is the input Jacobian: M is read as diag(M) when from_diag, and only the diagonal of the result is returned when to_diag. User-defined layers must have a symmetric jacobian (C33). An empty Sequential ignores the flags, so the claim is false for it.", "quantifier": "every finite nesting of layers with compatible shapes, every batch size >= 1, every input, every parameter value, every M, all four (from_diag,to_diag)", "why_tests_cant": "Universal over networks and metrics; the test for from_diag uses only all-ones diagonals.", "anchors": ["nnj/sequential.py:Sequential.jTmjp", "nnj/linear.py:Linear.jTmjp", "nnj/conv2d.py:Conv2d.jTmjp", "nnj/maxpool2d.py:MaxPool2d.jTmjp", "nnj/upsample.py:Upsample.jTmjp", "nnj/skipconnection.py:SkipConnection.jTmjp", "nnj/abstract_diagonal_jacobian.py:jTmjp"]}
{"id": "C07", "title": "jTmjp w.r.t. weight gives the layer-diagonal blocks (or the diagonal) of J^T M J", "statement": "For the same networks as C06, model.jTmjp(x, None, M, wrt='weight', ...) with diag_backprop=False: with to_diag=True it is the diagonal of J_w^T M J_w in get_weight() order; with to_diag=False it is the (nested) list whose entries are the diagonal blocks of J_w^T M J_w, one per parametric layer, and None iff there are no parameters.", "quantifier": "every finite nesting of layers with compatible shapes, every batch size >= 1, every input, every parameter value, every M, all four modes", "why_tests_cant": "Block offsets over arbitrary nesting; universal over metrics.", "anchors": ["nnj/sequential.py:Sequential.jTmjp", "nnj/linear.py:Linear.jTmjp", "nnj/conv2d.py:Conv2d.jTmjp", "nnj/skipconnection.py:SkipConnection.jTmjp"]}
{"id": "C08", "title": "jmjTp w.r.t. input is the pushed-forward metric in all four modes", "statement": "model.jmjTp(x, None, M, wrt='input', from_diag, to_diag) with diag_backprop=False equals J M J^T (respecting the diagonal flags) for non-empty networks of forward-capable layers.", "quantifier": "every finite nesting of layers with compatible shapes, every batch size >= 1, every input, every parameter value (forward-capable), every M, four modes", "why_tests_cant": "Universal over networks and metrics.", "anchors": ["nnj/sequential.py:Sequential.jmjTp", "nnj/linear.py:Linear.jmjTp", "nnj/skipconnection.py:SkipConnection.jmjTp", "nnj/abstract_jacobian.py:AbstractJacobian.jmjTp"]}
{"id": "C09", "title": "jmjTp w.r.t. weight pushes the block-diagonal part of a parameter metric forward", "statement": "model.jmjTp(x, None, M, wrt='weight', from_diag, to_diag) equals J_w B J_w^T where B is M with everything outside the per-layer diagonal blocks set to zero (M given whole, as a diagonal, or as the list of blocks).", "quantifier": "every finite nesting of layers with compatible shapes, every batch size >= 1, every input, every parameter value (forward-capable), every M", "why_tests_cant": "Universal over networks and metrics; off-block neglect is only visible with full M, which tests never pass.", "anchors": ["nnj/sequential.py:Sequential.jmjTp", "nnj/linear.py:Linear.jmjTp", "nnj/skipconnection.py:SkipConnection.jmjTp"]}
{"id": "C10", "title": "jacobian w.r.t. input is the true derivative of forward", "statement": "For any network of differentiable layers at a point where the network is smooth (no ReLU pre-activation equal to 0, unique pooling maxima in non-overlapping windows, Softplus below its threshold, TruncExp argument within [-15,15], L2Norm with eps=0 and nonzero input), model.jacobian(x, None, wrt='input') is the derivative of x |-> model(x): along every differentiable curve of inputs through x, the output's velocity is J times the input's velocity, separately per sample.", "quantifier": "every finite nesting of layers with compatible shapes, every batch size >= 1, every input, every parameter value, every differentiable curve of inputs", "why_tests_cant": "Derivatives are limits; tests compare with autograd on random points only.", "anchors": ["nnj/*.py:jacobian", "nnj/sequential.py:Sequential.mjp", "nnj/skipconnection.py:SkipConnection.jacobian"]}
{"id": "C11", "title": "jacobian w.r.t. weight is the true derivative in the order of get_weight()", "statement": "Under the same smoothness conditions, model.jacobian(x, None, wrt='weight') is the derivative of w |-> (set_weight(w); model(x)) at w = get_weight(): column p of J is the derivative with respect to entry p of the vector that get_weight() returns and set_weight() accepts.", "quantifier": "every finite nesting of layers with compatible shapes, every batch size >= 1, every input, every parameter value, every differentiable curve of parameter vectors", "why_tests_cant": "Derivative plus parameter ordering over arbitrary nesting.", "anchors": ["nnj/abstract_jacobian.py:AbstractJacobian.get_weight", "nnj/abstract_jacobian.py:AbstractJacobian.set_weight", "nnj/linear.py:Linear.jacobian", "nnj/conv2d.py:Conv2d.mjp", "nnj/sequential.py:Sequential.mjp"]}
{"id": "C12", "title": "Nesting Sequential does not change results", "statement": "Sequential(Sequential(a...), b...) and Sequential(a..., b...) return the same forward value and the same vjp, mjp, jvp, jmp, jacobian, input jTmjp and input jmjTp for every argument.", "quantifier": "every pair of layer lists, every input and argument", "why_tests_cant": "Universal over networks.", "anchors": ["nnj/sequential.py:Sequential"]}
{"id": "C13", "title": "jvp and vjp are adjoint", "statement": "For every network, <w, jvp(x, v)> = <vjp(x, w), v> for each sample, for wrt input and for wrt weight.", "quantifier": "every finite nesting of layers with compatible shapes, every batch size >= 1, every input, every parameter value, every v and w", "why_tests_cant": "Universal over networks and vectors.", "anchors": ["nnj/sequential.py:Sequential.jvp", "nnj/sequential.py:Sequential.vjp"]}
{"id": "C14", "title": "Products are linear in the propagated tensor", "statement": "vjp, mjp, jvp, jmp, jTmjp and jmjTp are linear in the propagated vector/matrix argument: op(a*u + c*v) = a*op(u) + c*op(v).", "quantifier": "every finite nesting of layers with compatible shapes, every batch size >= 1, every input, every parameter value, every pair of arguments and scalars", "why_tests_cant": "Universal over networks and reals.", "anchors": ["nnj/sequential.py:Sequential", "nnj/linear.py:Linear"]}
{"id": "C15", "title": "None means the identity metric", "statement": "Passing matrix=None to mjp/jmp gives the Jacobian and passing matrix=None to jTmjp/jmjTp gives the same result as passing the identity metric.", "quantifier": "every finite nesting of layers with compatible shapes, every batch size >= 1, every input, every parameter value", "why_tests_cant": "The default path branches on shape of x (2-D or 4-D) and layer type; tests always pass an explicit matrix.", "anchors": ["nnj/sequential.py:Sequential.jTmjp", "nnj/sequential.py:Sequential.jmjTp", "nnj/skipconnection.py:SkipConnection.jmjTp", "nnj/skipconnection.py:SkipConnection.jTmjp"]}
{"id": "C16", "title": "Backward products are correct after any history ending in a forward at the same point", "statement": "After any sequence of API calls on the model (forward, vjp, jvp, ... with any arguments, including ones that raised), calling val = model(x) and then any number of product calls at x, a backward product called with (x, val) returns the same as with val=None.", "quantifier": "every history of calls, every x", "why_tests_cant": "Depends on hidden mutable state (hook-filled feature maps, pooling indices) across unbounded call histories.", "anchors": ["nnj/sequential.py:Sequential.__init__", "nnj/sequential.py:Sequential.forward", "nnj/maxpool2d.py:MaxPool2d.forward"]}
{"id": "C17", "title": "Stored val and intervening forward-mode calls", "statement": "With val = model(x) saved, a backward product called later with (x, val) should still be the product at x even if a forward-mode product (jvp/jmp) at another input x' happened in between.", "quantifier": "every interleaving of calls at two inputs", "why_tests_cant": "History property over hidden state.", "anchors": ["nnj/sequential.py:Sequential.jvp", "nnj/sequential.py:Sequential.vjp", "nnj/maxpool2d.py:MaxPool2d.vjp"]}
{"id": "C18", "title": "val=None and val=model(x) agree", "statement": "For every product method and both values of wrt, calling it with val=None or with the freshly computed val=model(x) gives the same result.", "quantifier": "every finite nesting of layers with compatible shapes, every batch size >= 1, every input, every parameter value, every method", "why_tests_cant": "Per-method, per-layer branch on val over all networks.", "anchors": ["nnj/skipconnection.py:SkipConnection.jacobian", "nnj/sequential.py:Sequential"]}
{"id": "C19", "title": "Batch independence", "statement": "Each sample of every product depends only on that sample of x and of the propagated tensor; running a batch equals running the samples one at a time and stacking, or running any selection of the samples. User-defined layers must have this property themselves.", "quantifier": "every finite nesting of layers with compatible shapes, every batch size >= 1, every input, every parameter value", "why_tests_cant": "Universal over batch sizes and data.", "anchors": ["nnj/sequential.py", "nnj/conv2d.py", "nnj/maxpool2d.py"]}
{"id": "C20", "title": "diag_backprop computes the layer-by-layer diagonal approximation", "statement": "With from_diag=to_diag=diag_backprop=True, jTmjp/jmjTp propagates only diagonals: each layer maps d to diag(J_k^T diag(d) J_k); the result is entrywise nonnegative when the metric is; it equals the exact diagonal when every intermediate pulled-back metric is diagonal. User-defined layers must have a symmetric jacobian (C33).", "quantifier": "every finite nesting of layers with compatible shapes, every batch size >= 1, every input, every parameter value", "why_tests_cant": "Universal over depth and inputs.", "anchors": ["nnj/sequential.py:Sequential.jTmjp", "nnj/sequential.py:Sequential.jmjTp"]}
{"id": "C21", "title": "Pulled-back and pushed-forward metrics stay symmetric and positive semidefinite", "statement": "If M is symmetric (PSD) then jTmjp(full->full) and jmjTp(full->full) return symmetric (PSD) matrices, and diagonal outputs are nonnegative.", "quantifier": "every finite nesting of layers with compatible shapes, every batch size >= 1, every input, every parameter value, every PSD M", "why_tests_cant": "Universal over reals.", "anchors": ["nnj/sequential.py:Sequential.jTmjp", "nnj/log_likelihoods.py:ggn"]}
{"id": "C22", "title": "Non-parametric modules return None w.r.t. weight", "statement": "For a module with no parameters, every product with wrt='weight' (with a propagated tensor given) returns None and never raises.", "quantifier": "every parameter-free network and every argument", "why_tests_cant": "Universal over networks; tests carry a TODO for it.", "anchors": ["nnj/sequential.py:Sequential", "nnj/skipconnection.py:SkipConnection"]}
{"id": "C23", "title": "get_weight / set_weight round trip", "statement": "set_weight(w) followed by get_weight() returns w for every w of the right length; set_weight(get_weight()) changes nothing; a vector that is too short raises; extra trailing entries are ignored; the forward function depends on parameters only through get_weight().", "quantifier": "every network, every vector", "why_tests_cant": "Universal over nesting and vectors.", "anchors": ["nnj/abstract_jacobian.py:AbstractJacobian.get_weight", "nnj/abstract_jacobian.py:AbstractJacobian.set_weight"]}
{"id": "C24", "title": "Parameter counting", "statement": "_n_params of every network equals the length of get_weight() and the last dimension of every weight-wise product.", "quantifier": "every network", "why_tests_cant": "Universal over nesting.", "anchors": ["nnj/sequential.py:Sequential.__init__", "nnj/linear.py:Linear.__init__", "nnj/conv2d.py:Conv2d.__init__"]}
{"id": "C25", "title": "Diagonal fast paths agree with the dense definition", "statement": "For every element-wise layer, each product computed from the diagonal equals the same product computed with the dense matrix returned by jacobian(diag=False).", "quantifier": "every diagonal layer, input and argument", "why_tests_cant": "Universal over reals and sizes.", "anchors": ["nnj/abstract_diagonal_jacobian.py:AbstractDiagonalJacobian"]}
{"id": "C26", "title": "Activation derivative formulas", "statement": "Tanh, Sigmoid, Sinusoidal: the diagonal returned by jacobian is the derivative at every point; ReLU: at every nonzero point (and 0 is returned at 0); TruncExp: exactly on [-15,15] and clamped outside; Softplus: below the threshold.", "quantifier": "every real input", "why_tests_cant": "Limits over the reals.", "anchors": ["nnj/tanh.py", "nnj/sigmoid.py", "nnj/sinusoidal.py", "nnj/relu.py", "nnj/truncexp.py", "nnj/softplus.py"]}
{"id": "C27", "title": "L2Norm's Jacobian is the derivative of its forward", "statement": "L2Norm.jacobian is the derivative of L2Norm.forward for every eps and every nonzero x.", "quantifier": "every eps, every x", "why_tests_cant": "Real-analytic identity.", "anchors": ["nnj/l2norm.py:L2Norm.jacobian", "nnj/l2norm.py:L2Norm.forward"]}
{"id": "C28", "title": "Softplus beyond its threshold", "statement": "Where beta*x exceeds the threshold (forward is the identity) the returned derivative differs from the true derivative 1 by at most exp(-threshold).", "quantifier": "every x above the threshold, every beta>0", "why_tests_cant": "Real-analytic bound.", "anchors": ["nnj/softplus.py:Softplus.jacobian"]}
{"id": "C29", "title": "Conv2d products and the two back-propagation code paths", "statement": "For every Conv2d with stride 1, dilation 1 (any dilation on an axis where kernel and image have length 1), one group, padding <= kernel-1 and zero padding (or no padding), jacobian/vjp/mjp/jTmjp equal the products with the true convolution Jacobian, for the input and for the parameters, with or without bias, and the vmap and the loop code path return identical results.", "quantifier": "every channel count, kernel size, padding, image size, input", "why_tests_cant": "Index arithmetic (flip/pad/correlate) over unbounded sizes.", "anchors": ["nnj/conv2d.py:Conv2d"]}
{"id": "C30", "title": "Conv2d never silently returns a wrong weight product", "statement": "With zero padding or no padding, when dilation, groups or the padding amount fall outside what the weight products support, the products raise rather than return a wrong tensor; otherwise they are right. A stride different from 1 is rejected by the constructor.", "quantifier": "every configuration and size", "why_tests_cant": "Unbounded configuration space.", "anchors": ["nnj/conv2d.py:Conv2d.__init__", "nnj/conv2d.py:compute_reversed_padding", "nnj/conv2d.py:Conv2d.vjp"]}
{"id": "C31", "title": "MaxPool2d backward products", "statement": "MaxPool2d.vjp/mjp/jTmjp equal the product with MaxPool2d.jacobian.", "quantifier": "every kernel/stride/padding/dilation, every input", "why_tests_cant": "Scatter with duplicate indices only misbehaves for overlapping windows, which no test uses.", "anchors": ["nnj/maxpool2d.py:MaxPool2d.vjp", "nnj/maxpool2d.py:MaxPool2d.mjp", "nnj/maxpool2d.py:MaxPool2d.jTmjp"]}
{"id": "C32", "title": "Upsample backward products", "statement": "Upsample with integer scale factor and nearest mode: vjp/mjp/jTmjp equal the products with the derivative of forward.", "quantifier": "every scale, size and input", "why_tests_cant": "Universal over sizes.", "anchors": ["nnj/upsample.py:Upsample"]}
{"id": "C33", "title": "Custom layers obtain every product from jacobian", "statement": "A custom layer that only implements forward and jacobian gets jvp, jmp, vjp, mjp, jmjTp and jTmjp (all four diagonal modes) equal to the corresponding products with its jacobian, including inside Sequential.", "quantifier": "every custom layer's jacobian, every mode", "why_tests_cant": "Universal over layers; the repo's only such layer has a symmetric Jacobian.", "anchors": ["nnj/abstract_jacobian.py:AbstractJacobian.jTmjp", "README.md"]}
{"id": "C34", "title": "The README example works as documented", "statement": "model.jTmjp(x, val, None, wrt='weight', to_diag=True, diag_backprop=True) returns the approximate diagonal for the identity metric.", "quantifier": "every network and input", "why_tests_cant": "The documented call is never tested.", "anchors": ["README.md", "docs/source/nnj/index.rst", "nnj/sequential.py:Sequential.jTmjp"]}
{"id": "C35", "title": "Invalid wrt is rejected", "statement": "A wrt string other than 'input' and 'weight' is rejected with an AssertionError by every Sequential product.", "quantifier": "every string", "why_tests_cant": "Universal over strings and methods.", "anchors": ["nnj/sequential.py:Sequential"]}
{"id": "C36", "title": "LogGaussian.gradient is the gradient of LogGaussian.forward", "statement": "For aggregate 'sum' and 'average', gradient(x, model, target, wrt='weight') is the derivative of w |-> forward(x, model with weights w, target). For wrt='input' it is the sum (average) over the batch of the samples' gradients in their inputs, that is the derivative of forward when all samples are displaced alike. forward is the sum (average) over the batch of the Gaussian log density up to a constant.", "quantifier": "every finite nesting of layers with compatible shapes, every batch size >= 1, every input, every parameter value, every target, at which the layers are differentiable", "why_tests_cant": "Derivative over all networks.", "anchors": ["nnj/log_likelihoods.py:LogGaussian"]}
{"id": "C37", "title": "LogBinaryBernoulli.gradient is the gradient of its forward", "statement": "Same as C36 for LogBinaryBernoulli.", "quantifier": "every finite nesting of layers with compatible shapes, every batch size >= 1, every input, every parameter value, every target, at which the layers are differentiable", "why_tests_cant": "Derivative over all networks.", "anchors": ["nnj/log_likelihoods.py:LogBinaryBernoulli"]}
{"id": "C38", "title": "LogBernoulli.gradient is the gradient of its forward", "statement": "Same as C36 for LogBernoulli, for every target.", "quantifier": "every finite nesting of layers with compatible shapes, every batch size >= 1, every input, every parameter value, every target, at which the layers are differentiable", "why_tests_cant": "Derivative over all networks; correctness depends on a normalisation of the target no test checks.", "anchors": ["nnj/log_likelihoods.py:LogBernoulli"]}
{"id": "C39", "title": "ggn is J^T H J with H the Hessian of the log-likelihood in the output", "statement": "ggn(x, model, wrt) aggregates J^T H J where H is the Hessian of the log-likelihood with respect to the model output (diagonal when metric_shape='diag').", "quantifier": "every finite nesting of layers with compatible shapes, every batch size >= 1, every input, every parameter value", "why_tests_cant": "Second derivatives over all networks.", "anchors": ["nnj/log_likelihoods.py:LogGaussian.ggn", "nnj/log_likelihoods.py:LogBinaryBernoulli.ggn", "nnj/log_likelihoods.py:LogBernoulli.ggn"]}
{"id": "C40", "title": "Likelihood aggregation options", "statement": "Every documented aggregate_batch value works: 'return all' (the default) returns per-sample values, 'sum' their sum, 'average' their mean.", "quantifier": "every option, every input", "why_tests_cant": "Option space times inputs; no tests for likelihoods exist.", "anchors": ["nnj/log_likelihoods.py:LogLikelihood.__init__"]}
{"id": "C41", "title": "convert_to_nnj preserves the function", "statement": "convert_to_nnj(model) computes the same function as the torch model and keeps its parameters.", "quantifier": "every torch Sequential of supported layers, every input", "why_tests_cant": "Universal over models; no tests exist.", "anchors": ["nnj/utils.py:convert_to_nnj"]}
{"id": "C42", "title": "invert_block_diagonal inverts every block", "statement": "invert_block_diagonal(M) returns, with the same nesting, the inverse of every block of M.", "quantifier": "every nested list of invertible blocks", "why_tests_cant": "Universal over nestings and matrices.", "anchors": ["nnj/utils.py:invert_block_diagonal"]}
{"id": "C43", "title": "Hidden state stays bounded", "statement": "Calling product methods repeatedly does not grow the model's stored state.", "quantifier": "every number of calls", "why_tests_cant": "Unbounded histories.", "anchors": ["nnj/sequential.py:Sequential.__init__", "nnj/sequential.py:Sequential.jvp"]}
{"id": "C44", "title": "Products do not disturb the model", "statement": "No product call changes parameters or the function the model computes; backward products called with val leave the hidden state unchanged.", "quantifier": "every history of calls", "why_tests_cant": "Unbounded histories.", "anchors": ["nnj/sequential.py", "nnj/maxpool2d.py"]}
{"id": "C45", "title": "Conv2d padding modes", "statement": "For every padding mode the constructor accepts, Conv2d's backward products are the derivatives of forward or raise an exception.", "quantifier": "every padding mode, padding amount, kernel, image and input", "why_tests_cant": "Wrong values only show for circular/replicate/reflect padding at the image border; a refutation needs one witness per mode and the proof for zero padding is unbounded.", "anchors": ["nnj/conv2d.py:Conv2d.vjp", "nnj/conv2d.py:Conv2d.mjp", "nnj/conv2d.py:Conv2d.jTmjp"]}
{"id": "C46", "title": "Upsample with a fractional scale factor", "statement": "For every scale factor, Upsample's backward products are the derivatives of forward or raise an exception.", "quantifier": "every rational scale factor, size and input", "why_tests_cant": "int(scale_factor) truncates; whether the result shape still fits depends on the arithmetic of the sizes.", "anchors": ["nnj/upsample.py:Upsample.vjp", "nnj/upsample.py:Upsample.jacobian"]}
{"id": "C47", "title": "add_hooks=False", "statement": "A Sequential built with add_hooks=False computes the same forward function and the same forward-mode products (jvp, jmp) as the one built with add_hooks=True; its reverse-mode products (vjp, mjp, jacobian, jTmjp, jmjTp) raise AttributeError and never return a wrong value.", "quantifier": "every module tree with any nesting, any subset of Sequentials with hooks switched off, every input and propagated tensor", "why_tests_cant": "The hook flag can be set independently on every nested Sequential; the claim quantifies over all such trees and all inputs, and the absence of silent wrong values cannot be sampled.", "anchors": ["nnj/sequential.py:Sequential.__init__", "nnj/sequential.py:Sequential.forward", "nnj/sequential.py:Sequential.vjp", "nnj/skipconnection.py:SkipConnection.__init__"]}
{"id": "C48", "title": "The Gauss-Newton metric of a likelihood is negative semidefinite", "statement": "For LogGaussian, LogBinaryBernoulli and LogBernoulli, whenever ggn returns a metric it is the aggregate of J^T H J with H the second derivative of a concave log density: the full matrix is symmetric with v^T G v <= 0 for every v, the diagonal (exact or approximated layer by layer) has no positive entry. So -G is a valid precision matrix.", "quantifier": "every network, batch, parameter value, aggregation, metric shape, and both wrt", "why_tests_cant": "Semidefiniteness quantifies over all vectors v and all network outputs; for the softmax it rests on a variance inequality, not on sampled values.", "anchors": ["nnj/log_likelihoods.py:LogLikelihood.ggn", "nnj/log_likelihoods.py:LogGaussian", "nnj/log_likelihoods.py:LogBinaryBernoulli", "nnj/log_likelihoods.py:LogBernoulli"]}
{"id": "C49", "title": "forward computes the documented function", "statement": "forward of every layer is the documented function, entry by entry: MaxPool2d the maximum of each (possibly overlapping, padded, dilated) window, Conv2d the zero-padded correlation with stride, dilation and groups, Linear W x + b, Upsample repeats each pixel, Flatten/Reshape keep the row-major order, activations and L2Norm their formulas; Sequential composes its children in order and SkipConnection(F)(x) is x followed by F(x) along dimension 1, refused when the other dimensions differ.", "quantifier": "every configuration, size, batch and input", "why_tests_cant": "Sizes, paddings, strides, groups and nesting are unbounded; border windows and overlaps have to be right for all of them.", "anchors": ["nnj/maxpool2d.py:MaxPool2d.forward", "nnj/sequential.py:Sequential.forward", "nnj/skipconnection.py:SkipConnection.forward", "nnj/l2norm.py:L2Norm.forward", "nnj/flatten.py:Flatten.forward", "nnj/reshape.py:Reshape.forward", "nnj/sinusoidal.py:Sinusoidal.forward", "nnj/truncexp.py:TruncExp.forward"]}
{"id": "C50", "title": "Unsupported forward products fail loudly", "statement": "If a network contains, at any depth, a Conv2d, Upsample or MaxPool2d, then jvp and jmjTp with wrt='input' raise (jmp too for Conv2d and Upsample); with a Conv2d also jvp, jmp and jmjTp with wrt='weight' raise; with a SkipConnection without parameters jvp and jmp with wrt='weight' raise. No such call ever returns a value, whatever the input, state and arguments; on well-shaped arguments jvp raises NotImplementedError.", "quantifier": "every module tree and position of the layer, every hidden state, input, val and propagated tensor", "why_tests_cant": "A silent wrong value would need the right nesting to show; tests only check single layers.", "anchors": ["nnj/conv2d.py:Conv2d.jvp", "nnj/conv2d.py:Conv2d.jmp", "nnj/conv2d.py:Conv2d.jmjTp", "nnj/upsample.py:Upsample.jvp", "nnj/maxpool2d.py:MaxPool2d.jvp", "nnj/maxpool2d.py:MaxPool2d.jmjTp", "nnj/sequential.py:Sequential.jvp", "nnj/skipconnection.py:SkipConnection.jvp"]}
{"id": "C51", "title": "MaxPool2d.jmp is jacobian times matrix", "statement": "MaxPool2d.jmp(x, None, M, wrt='input') equals MaxPool2d.jacobian(x) times M for every number of columns of M.", "quantifier": "every kernel, stride, padding and dilation (overlapping windows included), every size, input and M", "why_tests_cant": "The number of columns is free; only the square case is reachable through jacobian.", "anchors": ["nnj/maxpool2d.py:MaxPool2d.jmp"]}
{"id": "C52", "title": "Likelihoods decompose over samples", "statement": "forward, gradient and ggn of a likelihood with aggregate_batch 'sum' (resp. 'average') return the sum (resp. mean) over the samples of per-sample terms that do not depend on which batch the sample is in. So results on mini-batches add up to the result on the whole batch, any reordering of (x, target) pairs leaves the result unchanged, and 'average' is 'sum' divided by the batch size.", "quantifier": "every likelihood, network whose user-defined layers treat samples independently, batch, selection of samples (any order, with repetition), hidden state; ggn for every call that returns", "why_tests_cant": "Additivity quantifies over all ways to split and reorder a batch.", "anchors": ["nnj/log_likelihoods.py:LogGaussian.forward", "nnj/log_likelihoods.py:LogGaussian.gradient", "nnj/log_likelihoods.py:LogGaussian.ggn", "nnj/log_likelihoods.py:LogBinaryBernoulli", "nnj/log_likelihoods.py:LogBernoulli"]}
{"id": "C53", "title": "A forward product that returns is right", "statement": "For every well-shaped network, with whatever layers in it: if jvp, jmp or jmjTp (diag_backprop off) returns instead of raising, the result is the product of jacobian with the given vector or matrix (jmjTp wrt weight: with the layer-diagonal blocks of the given matrix), and None wrt weight exactly if there are no parameters. In particular convolutions, upsampling and pooling never silently corrupt a forward product.", "quantifier": "every module tree, batch size, input, vector or matrix, hidden state; no assumption on the layers", "why_tests_cant": "Which layers are skipped, and which raise, depends on their order relative to the parameters; tests fix a few architectures.", "anchors": ["nnj/sequential.py:Sequential.jvp", "nnj/sequential.py:Sequential.jmp", "nnj/sequential.py:Sequential.jmjTp", "nnj/skipconnection.py:SkipConnection", "nnj/maxpool2d.py:MaxPool2d.jmp", "nnj/upsample.py:Upsample.jvp", "nnj/conv2d.py:Conv2d.jvp"]}
{"id": "C54", "title": "Upsample in bilinear mode", "statement": "With mode='bilinear' and an integer scale factor, jacobian and the backward products of Upsample are the derivatives of forward.", "quantifier": "every scale factor, batch size, number of channels, image size and input", "why_tests_cant": "The products ignore the mode and return without an exception; for which factors and sizes they happen to be right is a statement about all of them.", "anchors": ["nnj/upsample.py:Upsample.jacobian", "nnj/upsample.py:Upsample.vjp", "nnj/upsample.py:Upsample.mjp", "nnj/upsample.py:Upsample.jTmjp"]}
{"id": "C55", "title": "One layer object at several positions", "statement": "A network may use the same layer object (an activation, a MaxPool2d, a block) at several positions: every method returns what it returns for the network in which each position has its own copy.", "quantifier": "every module tree and every pattern of sharing, input, vector or matrix, wrt, flags, and every content of the hidden attributes left by earlier calls on any of the objects", "why_tests_cant": "The hooks and hidden attributes of a shared object are written once per use and read by position; whether they line up depends on the whole pattern of sharing, and when they do not the result is wrong without an exception.", "anchors": ["nnj/sequential.py:Sequential.__init__", "nnj/sequential.py:Sequential.forward", "nnj/sequential.py:Sequential.vjp", "nnj/maxpool2d.py:MaxPool2d.forward"]}
{"id": "C56", "title": "The parameter vector of a network with shared layers", "statement": "get_weight() has exactly as many entries as the products with respect to the weight have columns, also when a layer object with parameters is used at several positions.", "quantifier": "every module tree and every pattern of sharing", "why_tests_cant": "The count depends on the pattern of sharing; tests build layers afresh for every position.", "anchors": ["nnj/abstract_jacobian.py:AbstractJacobian.get_weight", "nnj/sequential.py:Sequential.__init__"]}
{"id": "C57", "title": "Deep copies of a model", "statement": "copy.deepcopy(model) is an independent model: every method returns what it returns for the original, and using the copy does not change the original.", "quantifier": "every module tree and pattern of sharing, input, vector or matrix, and every content of the hidden attributes of both", "why_tests_cant": "The copy's hooks are closures over the original; tests call the models they have built themselves, and forward and forward products of the copy are right.", "anchors": ["nnj/sequential.py:Sequential.__init__", "nnj/sequential.py:Sequential.forward", "nnj/sequential.py:Sequential.vjp"]}
{"id": "C58", "title": "The worked example UNet.ipynb", "statement": "The notebook's training step changes get_weight() by exactly the gradient of minus half the squared error of the network on the batch; its Laplace approximation (jTmjp with metric None and all three diagonal flags, summed over the batch, plus one) returns precisions of at least 1 and standard deviations in (0, 1]; the U-Net accepts every batch of one-channel images whose sides are multiples of 16, returns images of the same size and has 21976513 parameters; the sampled predictions use weights drawn around the trained weights.", "quantifier": "training step and Laplace approximation: every network the library can express with compatible shapes, every batch, input, target and parameter value (training step: where the layers are differentiable); the U-Net: every number of channels, every image size divisible by 16, all parameter values", "why_tests_cant": "the notebook was run once, on random data of one size; a derivative and a positivity bound for all weights and inputs cannot be tested", "anchors": ["UNet.ipynb", "nnj/sequential.py:29-36", "nnj/skipconnection.py:18-19", "nnj/conv2d.py:157-250"]}
{"id": "C59", "title": "Calls change no tensor of the caller", "statement": "Calling forward or any product of a model changes none of the tensors that existed before the call (inputs, vectors, matrices, earlier results, stored feature maps) and no parameter, even though the library uses views (reshape, transpose, slices, diagonals, detach) and in-place additions; the result and the stored feature maps hold the values they would hold if every operation copied its operands, and results keep these values during all later calls.", "quantifier": "every model (custom layers must return a Jacobian for the input), every method, every combination of arguments that share storage with each other, with earlier results or with stored feature maps, every choice of which reshapes are views, sessions of any length", "why_tests_cant": "a test sees the aliasing of the tensors it builds; whether an in-place addition can reach a tensor of the caller depends on every composition of views along the network", "anchors": ["nnj/sequential.py:60-82", "nnj/sequential.py:100-121", "nnj/sequential.py:190-214", "nnj/skipconnection.py:40-120", "nnj/reshape.py:1-120", "nnj/flatten.py:1-120"]}
{"id": "C60", "title": "Results may be changed in place", "statement": "The tensor a product returns can be changed in place by the caller without changing the model's parameters, its stored feature maps or any tensor the caller had before.", "quantifier": "every model, method, memory and state; every value written", "why_tests_cant": "sharing of storage is invisible in the values a test compares; it depends on the layers and on which reshapes are views", "anchors": ["nnj/linear.py:22-24", "nnj/sequential.py:84-121", "nnj/reshape.py:1-120", "nnj/maxpool2d.py:60-120"]}
{"id": "C61", "title": "In-place operations of the caller between calls", "statement": "A program that calls forward and the products, creates tensors and changes its own tensors in place between the calls gets the results determined by the values it passes at each call; tensors changed later do not reach into the model.", "quantifier": "every model, every program (any number of calls, new tensors and in-place operations in any order)", "why_tests_cant": "the stored feature maps outlive the call, so an in-place operation affects calls made arbitrarily later", "anchors": ["nnj/sequential.py:22-36", "nnj/sequential.py:38-58"]}
{"id": "C62", "title": "The GGN benchmark computes the GGN", "statement": "GGN(model).ggn(X, y) of benchmarks/ggn/nnj.py returns the average over the batch of the diagonal of J^T J, where J is the derivative of the torch model's output with respect to its parameters in the order of model.parameters().", "quantifier": "every torch Sequential of supported layers, in particular the networks of benchmarks/models.py for all widths, depths, weights, inputs and batch sizes", "why_tests_cant": "no test runs the benchmark; the claim is about real derivatives and every network", "anchors": ["benchmarks/ggn/nnj.py:8-28", "benchmarks/models.py:3-10", "nnj/utils.py:10-39", "nnj/sequential.py:290-347"]}
{"id": "C63", "title": "The README example computes the gradient of the l2 loss", "statement": "val = model(x); residual = val - target; torch.mean(model.vjp(x, val, residual, wrt=\"weight\"), dim=0) is the gradient, with respect to the vector of get_weight, of the batch average of half the squared distance between output and target.", "quantifier": "every network with vector outputs, smooth at the input; all weights, inputs, targets and batch sizes", "why_tests_cant": "a statement about real derivatives for all networks and all directions; the scaling (1/2, 1/b) is only visible against the loss", "anchors": ["README.md:27-55", "nnj/sequential.py:84-121", "nnj/linear.py:90-120"]}
{"id": "C64", "title": "Vectors of the wrong length are rejected", "statement": "vjp with respect to the input raises when the number of columns of the vector is not the number of entries of an output of the model.", "quantifier": "every model, input, state, batch size and number of columns", "why_tests_cant": "einsum broadcasts dimensions of size 1, so whether a wrong vector is noticed depends on the sizes of all layers between it and the input", "anchors": ["nnj/sequential.py:218-250", "nnj/linear.py:120-140", "nnj/abstract_jacobian.py:150-167", "nnj/abstract_diagonal_jacobian.py:105-122", "nnj/skipconnection.py:141-156", "README.md:37-54"]}
{"id": "C65", "title": "Models in another dtype", "statement": "A model converted to another floating-point type (model.double(), model.half()), called with inputs, vectors and matrices of that type: forward, jacobian and every product return tensors of that type, and none raises because of types.", "quantifier": "every model tree, every dtype of the model and default dtype of torch, every stored state, input, vector, matrix and mode", "why_tests_cant": "tests run in the default float32, where a constant created without dtype= has the right type by accident; which networks break in another type depends on every layer and on promotion rules through the tree", "anchors": ["nnj/conv2d.py:44-58", "nnj/maxpool2d.py:30-54", "nnj/maxpool2d.py:150-304", "nnj/upsample.py:17-285", "nnj/l2norm.py:23-46", "nnj/sequential.py:218-347"]}
{"id": "C66", "title": "Gradients keep the precision of the model", "statement": "The product of a vector with the jacobian for the parameters, computed with a model, input and vector of one dtype, has that dtype and is at no point rounded to a coarser one.", "quantifier": "every model tree with hooks, every dtype of the model and default dtype of torch, every input, vector and state", "why_tests_cant": "a silent rounding to float32 is below the tolerance of numerical comparisons, and raises nothing", "anchors": ["nnj/conv2d.py:155-254", "nnj/conv2d.py:257-364", "nnj/conv2d.py:500-520", "nnj/conv2d.py:620-658", "nnj/sequential.py:218-250"]}
{"id": "C67", "title": "Linear on inputs that are not (batch, features)", "statement": "A Linear layer applied to an input with any number of dimensions maps the last one; jacobian and every product either are those of that map on whole samples or raise.", "quantifier": "every weight, bias, rank and shape of the input, vector, matrix, mode and state", "why_tests_cant": "forward works on every rank, so a network that contains such a layer looks fine; whether a product notices depends on einsum broadcasting dimensions of size 1", "anchors": ["nnj/linear.py:9-33", "nnj/linear.py:40-164", "nnj/linear.py:171-294"]}
{"id": "C68", "title": "Images without a batch dimension", "statement": "Calling a model on one image of shape (channels, height, width) either returns what the batch containing only that image returns, or raises; and no jacobian or product silently answers for such an input.", "quantifier": "for all networks (nested Sequential and SkipConnection, any depth), all images, all method arguments, all states or call histories", "why_tests_cant": "The tests only use batched inputs; torch's convolution and pooling layers accept single images while its other operations read the first dimension as the batch, so the behaviour depends on the combination of layers.", "anchors": ["nnj/conv2d.py:44-57", "nnj/conv2d.py:157-175", "nnj/maxpool2d.py:16-27", "nnj/maxpool2d.py:150-182", "nnj/upsample.py:118-151", "nnj/skipconnection.py:17-18", "nnj/flatten.py", "nnj/sequential.py:218-250"]}
{"id": "C69", "title": "Networks edited after construction", "statement": "After layers of a Sequential are appended, inserted, deleted or replaced (the editing methods it inherits from torch.nn.Sequential), model(x), every product and every jacobian are those of a Sequential built from the current layers, or the call raises.", "quantifier": "for all networks, all programs of edits and calls, all inputs and method arguments", "why_tests_cant": "No test edits a network; the constructor copies the list of layers and registers hooks once, so that the two directions of differentiation look at different lists, for arbitrary sequences of edits.", "anchors": ["nnj/sequential.py:10-29", "nnj/sequential.py:30-36", "nnj/sequential.py:48-121", "nnj/sequential.py:124-211", "nnj/sequential.py:218-347"]}
{"id": "C70", "title": "One accepted batch certifies a network", "statement": "The constructors accept exactly the documented arguments, count the parameters that these ask for, and build the layer that the arguments describe (its forward is given entry by entry, with the default stride of MaxPool2d and the order of Sequential and SkipConnection); whether model(x) returns depends only on the shape of x; and once model(x) has returned for one batch, a network with supported settings accepts every batch of samples of that shape and its jacobian and products there exist and agree.", "quantifier": "for all expressions of nested constructors with any arguments, all initial parameters, all batches, vectors and states", "why_tests_cant": "The tests build a few fixed networks; that a single successful call is evidence for all other batches, parameters and products is a statement about all architectures.", "anchors": ["nnj/conv2d.py:16-43", "nnj/linear.py:10-12", "nnj/maxpool2d.py:11-27", "nnj/upsample.py:11-13", "nnj/sequential.py:10-36", "nnj/skipconnection.py:11-18", "nnj/reshape.py:10-18"]}
{"id": "C71", "title": "A model and its slices can be used in turn", "statement": "A slice model[i:j] is a Sequential over the same layers: model and slices, called in turn in any way, give the forward passes and the products that separate networks with the same layers would give, and slice.set_weight(w) replaces exactly the part of model.get_weight() that belongs to the layers of the slice.", "quantifier": "for all lists of layers, any number of slices (overlapping or not), all sequences of calls on them, all batches, vectors and weights", "why_tests_cant": "Model and slices write to each other's stored feature maps through the hooks on the common layers; whether a product is affected depends on the whole sequence of calls, and the tests never slice a network.", "anchors": ["nnj/sequential.py:10-36", "nnj/sequential.py:61-80", "nnj/sequential.py:100-119", "nnj/sequential.py:141-142", "nnj/sequential.py:232-233", "nnj/sequential.py:267-268", "nnj/sequential.py:305-306", "nnj/abstract_jacobian.py:235-246"]}
