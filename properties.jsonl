{"id": "C01", "title": "LZW compression round trip", "statement": "Decompressing what compress() wrote for a byte string returns success and writes exactly that byte string, whatever its length, including inputs long enough to fill and reset the 2^20-entry dictionary any number of times.", "quantifier": "all byte strings of any length; all dictionary limits of at least 258 entries (the shipped 2^20 is one instance)", "why_tests_cant": "The interesting points (code-width changes, dictionary resets, the end-of-stream code landing on a width change) depend on the exact number of codes emitted, which depends on the content; a test only samples a few lengths.", "anchors": ["include/utils/lzw.hpp: compress, decompress, EncoderDictionary, CodeWriter, CodeReader, required_bits"]}
{"id": "C02", "title": "A truncated LZW stream never yields wrong bytes", "statement": "If a compressed stream is cut after any number of bytes, whatever decompress() writes is a prefix of the original data, i.e. it never invents bytes. (It is not always reported as a failure: there are truncations that are silently accepted as complete.)", "quantifier": "all byte strings, all cut points", "why_tests_cant": "Every cut point of every stream is a different case, and the failure needs a code whose low bits coincide with the end marker to straddle the cut.", "anchors": ["include/utils/lzw.hpp: decompress, CodeReader::read"]}
{"id": "C03", "title": "LZW decoder on arbitrary bytes", "statement": "For every byte stream too short to fill the dictionary (up to 1,179,358 bytes) decompress() returns, with success or a reported error, exactly when the stream does not begin with the 9-bit code 257; when it does, the decoder indexes its dictionary out of range. Longer malformed streams can reach an out-of-range access also after a dictionary reset. The main loop always terminates.", "quantifier": "all byte streams, well formed or not", "why_tests_cant": "Malformed streams form an unbounded space; absence of out-of-range accesses must hold for every one.", "anchors": ["include/utils/lzw.hpp: decompress, rebuild_string"]}
{"id": "C04", "title": "parallel() visits every index exactly once", "statement": "parallel(f, 0, n) calls f exactly once for each index in [0, n) and for no other index, for every hardware concurrency and every parallel_mode; with a start index other than 0 in the chunked case the final chunk is wrong and the exact set of visited indices is characterised.", "quantifier": "all n, all core counts, all start indices, both parallel modes", "why_tests_cant": "The partition depends on the machine's core count and on ceil divisions; tests run on one machine only.", "anchors": ["include/utils/parallel.hpp: parallel", "include/utils/for_each.hpp"]}
{"id": "C05", "title": "Element-wise loops are schedule independent", "statement": "for_each over an array (used by map, += scalar, clip, ...) gives the same final array as the sequential loop under every interleaving of the worker threads' element updates.", "quantifier": "all arrays, all core counts, all interleavings of the threads", "why_tests_cant": "The number of interleavings is exponential and the scheduler picks only a few of them.", "anchors": ["include/utils/for_each.hpp: for_each", "include/utils/parallel.hpp: parallel"]}
{"id": "C06", "title": "The caching allocator never hands out a live block", "statement": "For every history of allocate/deallocate (freeing only what is live), each allocate returns a block disjoint from all live blocks, of the requested size, and zero filled.", "quantifier": "all operation histories", "why_tests_cant": "A double hand-out needs a particular history of frees and requests of matching sizes.", "anchors": ["include/utils/cached_allocator.hpp: cached_memory::allocate, deallocate, cached_allocator::allocate"]}
{"id": "C07", "title": "Garbage collection of the caching allocator", "statement": "Collecting the cache and going on allocating must not touch released memory. It does: a finished history is sound (no allocation ever overlapped a live block, and all releases at exit are valid) exactly when no gc() call ever returned true; after one did, the next allocation of a reserved size uses released memory or overlaps somebody else's block, and further collections and the exit release twice.", "quantifier": "all operation histories including explicit gc() calls and the automatic one on memory exhaustion", "why_tests_cant": "Memory reuse after release is silent in most runs.", "anchors": ["include/utils/cached_allocator.hpp: memory_cache::gc, allocate, ~memory_cache"]}
{"id": "C08", "title": "Broadcast shape follows the NumPy rule", "statement": "The shape of a + b is the NumPy broadcast of the two shapes: aligned from the right, each pair of dimensions equal or one of them 1, and incompatible shapes are rejected by the assertion; the rule is commutative, associative and idempotent.", "quantifier": "all pairs of shapes of any rank", "why_tests_cant": "Ranks and dimension combinations are unbounded.", "anchors": ["include/tensor.tcc: broadcast_shape"]}
{"id": "C09", "title": "Broadcasting a tensor replicates the right elements", "statement": "Broadcasting tensor t to a compatible shape s yields a tensor of shape s whose element at multi-index i is the element of t at i with leading axes dropped and axes of size 1 clamped to 0.", "quantifier": "all tensors, all compatible target shapes of any rank", "why_tests_cant": "Index arithmetic must be right for every rank and every combination of stretched axes.", "anchors": ["include/tensor.tcc: broadcast_tensor"]}
{"id": "C10", "title": "Tensor sum and difference values", "statement": "a + b and a - b on compatible shapes return, at every multi-index of the broadcast shape, the sum/difference of the two broadcast elements.", "quantifier": "all pairs of tensors with compatible shapes", "why_tests_cant": "Values must be right for every rank, shape pair and aliasing of the two operands.", "anchors": ["include/tensor.tcc: add, minus, operator+, operator-"]}
{"id": "C11", "title": "Tensor sum and difference leave their operands alone", "statement": "Evaluating a + b or a - b should not change a, b or any other tensor. The right operand and unrelated tensors are never changed; the left operand keeps its data exactly when the broadcast shape is not its own shape padded with leading ones, otherwise it (and every alias of it) is overwritten with the result.", "quantifier": "all heaps of tensors with arbitrary sharing, all operand pairs", "why_tests_cant": "The defect shows only through aliasing: the returned value is right, the operand is silently changed.", "anchors": ["include/tensor.tcc: add, minus", "include/tensor.hpp: operator+=, operator-=, tensor(self_type const&)"]}
{"id": "C12", "title": "Scalar arithmetic leaves its operands alone", "statement": "t + x, t - x, x - t, t * x, x * t, t / x, and unary minus return a tensor with fresh storage whose elements are the elementwise result, and change no existing tensor.", "quantifier": "all tensors, all scalars, all heaps", "why_tests_cant": "Absence of mutation must hold for every tensor reachable through any alias.", "anchors": ["include/tensor.tcc: operator+ - * / with a scalar", "include/tensor.hpp: deep_copy, operator-()"]}
{"id": "C13", "title": "Copies share, deep copies do not", "statement": "Copying or assigning a tensor makes the two names share their elements: a write through one is seen through the other. After deep_copy no sequence of element writes or in-place arithmetic through one is visible through the other.", "quantifier": "all tensors and all finite sequences of in-place operations", "why_tests_cant": "Independence must survive any later history of in-place operations.", "anchors": ["include/tensor.hpp: tensor(self_type const&), operator=, deep_copy"]}
{"id": "C14", "title": "Reshape keeps the elements", "statement": "t.reshape(s) with a shape of the same total size keeps every element in row-major order and does not affect other names of the storage; a trailing -1 is inferred as size divided by the product of the rest; and when the sizes differ no error is raised: the elements (of every alias) are replaced by zeros.", "quantifier": "all tensors, all requested shapes including a trailing -1", "why_tests_cant": "Silent data loss on a mismatching request needs the right combination of shape and sharing.", "anchors": ["include/tensor.hpp: reshape, resize"]}
{"id": "C15", "title": "Matrix product on contiguous data", "statement": "gemm computes C = op(A) op(B) for all four combinations of transposed operands: each output element is the k-ordered sum of products of the right row and column, no output element is left out, no element outside is touched.", "quantifier": "all matrix sizes including zero, all transposition flags", "why_tests_cant": "Row/column stride mistakes cancel on square or symmetric examples.", "anchors": ["include/tensor.tcc: gemm_cpu, gemm"]}
{"id": "C16", "title": "Matrix product of tensors", "statement": "a * b for 2-D tensors of shapes (m,k) and (k,n) has shape (m,n) and the matrix-product elements. When the left operand is 1-D it acts as a row. When the right operand is 1-D of length different from what the code computes, the operand is destroyed.", "quantifier": "all shapes and all element values", "why_tests_cant": "The 1-D path misuses the left operand's size; it is right only when the left operand has a single row.", "anchors": ["include/tensor.tcc: multiply, operator*"]}
{"id": "C17", "title": "Element-wise product law", "statement": "elementwise_product(a,b) on equal shapes is the pointwise product with no effect on the operands; on different sizes it tiles the smaller operand cyclically, which agrees with NumPy broadcasting exactly when the smaller operand's shape is a suffix (up to leading ones) of the larger one's.", "quantifier": "all pairs of tensors", "why_tests_cant": "Cyclic tiling and broadcasting coincide on most hand-written examples.", "anchors": ["include/tensor.tcc: elementwise_product, hadamard_product"]}
{"id": "C18", "title": "Concatenation law", "statement": "concatenate(a, b, axis) for tensors equal in every other dimension has the summed extent along axis, and its element at index i is a's element when i[axis] < a.shape[axis], otherwise b's element with the index shifted. A debug build stops on tensors that differ in another dimension. The law needs a non-empty prefix: with a zero extent in front of the axis the code copies a block that does not exist.", "quantifier": "all ranks, all axes, all extents", "why_tests_cant": "Block interleaving must be right for every axis of every rank.", "anchors": ["include/tensor.tcc: concatenate"]}
{"id": "C19", "title": "Axis reductions", "statement": "sum/mean/max/min along an axis produce, for every remaining index, the reduction of exactly the elements on that fibre, each once; keepdims only changes the shape; the library's max over all elements is wrong for tensors of negative floating point numbers because it starts from the least positive number; reducing a vector without keepdims is undefined.", "quantifier": "all ranks, axes and element values", "why_tests_cant": "The strided walk and the 4-way unrolled reduction must be right for every length and stride.", "anchors": ["include/tensor.tcc: reduce, sum, mean, max, min, amax, amin"]}
{"id": "C20", "title": "Softmax rows", "statement": "softmax treats the tensor as rows of the last dimension: within a row the outputs are non-negative, keep the order of the inputs, and sum to ac/(ac+eps) for the row total ac, so at most one; each output is the exact softmax scaled by that factor; adding a constant to a row changes nothing.", "quantifier": "all tensors of rank >= 1 with real elements", "why_tests_cant": "A numeric invariant over all real inputs.", "anchors": ["include/tensor.tcc: softmax"]}
{"id": "C21", "title": "Flips are involutions", "statement": "Flipping a tensor along an axis reverses exactly that axis, and flipping twice gives the tensor back, for one to four dimensions. An empty tensor loses its shape; axes below -1 silently mean the last axis; with five or more dimensions a release build overwrites the argument.", "quantifier": "all ranks, axes, extents", "why_tests_cant": "Index reversal has off-by-one edges at every extent.", "anchors": ["include/tensor.tcc: flip, flipud, fliplr"]}
{"id": "C22", "title": "Tensor text format round trip", "statement": "Writing a tensor as text and reading it back returns the same shape, leaves the stream just behind the tensor, and returns the same elements exactly when each element survives its own decimal formatting. Elements needing more digits than the stream's precision do not: session files use six digits, save_tensor eight for float and fifteen for double, and at each of these precisions two different numbers load as the same. An unreadable element (inf, nan) makes a debug build abort and a release build leave all following elements as they were; a default-constructed tensor does not return.", "quantifier": "all shapes, element lists, previous contents of the tensor read into, and all pairs of a formatting and a reading function", "why_tests_cant": "The parser/printer pair must agree on every length; precision loss needs specific values.", "anchors": ["include/tensor.tcc: read_tensor, write_tensor, load_tensor, save_tensor", "include/session.hpp: save_original, restore_original"]}
{"id": "C23", "title": "Saving and restoring a session", "statement": "save followed by restore into a session with the same variables puts every variable's value back under the right identifier, regardless of the current values and shapes and of the order in which variables are walked, leaves variables that were not saved unchanged, and leaves no other file behind. A file naming a variable the session does not have aborts in a debug build and is undefined behaviour in a release build.", "quantifier": "all sets of variables, all values that survive formatting, all current contents, all file systems", "why_tests_cant": "Pairing ids with tensors relies on iteration order over an arbitrary id set.", "anchors": ["include/session.hpp: save_original, restore_original"]}
{"id": "C24", "title": "Crash while saving a session", "statement": "If the process dies at any point during session.save(path), the file at path should hold either the previous or the new complete content. It does not: the target is truncated and rewritten in place, so every prefix of the new content can be left behind (with the whole session in path.tmp). For every session and every previous content there is a crash point after which restore(path) in a release build silently restores nothing and deletes path.tmp, losing both. A file cut between two variables restores the first ones and turns the others into shapeless single numbers.", "quantifier": "all crash points, all splittings of the output into pieces, all previous file contents, all sessions", "why_tests_cant": "Crash points cannot be enumerated by ordinary tests.", "anchors": ["include/session.hpp: save, restore"]}
{"id": "C25", "title": "Forward pass computes each node once and returns its value", "statement": "session.run(e) returns the mathematical value of e for the current variable values and placeholder bindings, evaluating each distinct operator node once, provided no node output that is used elsewhere is the left operand of + or -.", "quantifier": "all expression graphs of any size and sharing, all variable values", "why_tests_cant": "Graphs are unbounded and the forward cache makes results depend on evaluation order and sharing.", "anchors": ["include/operation.hpp: unary_operator::forward, binary_operator::forward", "include/session.hpp: run, query_forward_cache, update_forward_cache"]}
{"id": "C26", "title": "Running an expression does not change the model", "statement": "Evaluating an expression in prediction should leave variables unchanged. It does not when a variable (or a view of one) of the result's shape is the left operand of + or -: each run adds the right operand to the variable itself; otherwise variables are unchanged.", "quantifier": "all expression graphs, all histories of runs", "why_tests_cant": "Visible only across repeated runs and through aliasing.", "anchors": ["include/operation.hpp: plus_context, minus", "include/variable.hpp: forward", "include/tensor.tcc: add"]}
{"id": "C27", "title": "Back-propagation computes the gradient", "statement": "After run(e) and backward(g) in the training phase, each element of the gradient of a variable, all of whose occurrences are trainable, equals the exact derivative (over the reals) of <g, e> plus the regularisers' cost with respect to that element, for every expression tree whose operators' local rules are right at their inputs (C30-C32); variables may occur any number of times. Provisos: no sum is computed inside a tensor that something else reads (C26), nor inside a result that its operator's backward action reads (C53).", "quantifier": "all expression trees, all variable values and seeds", "why_tests_cant": "The chain rule must hold for arbitrary compositions; finite differences check one point approximately.", "anchors": ["include/operation.hpp: unary_operator::backward, binary_operator::backward", "include/variable.hpp: backward"]}
{"id": "C28", "title": "Back-propagation through shared sub-expressions", "statement": "When the same operator occurs more than once in a graph its contribution to the gradient should be the sum over its occurrences. It is not: after a run exactly one copy of each operator, the one that ran, has an input; the others' backward actions are called with an empty input, so the gradient of y*y with y = square(x) is never computed. In general: in any graph in which an operator whose backward action needs its input (products, matrix products, maxima, every element-wise operator reading its input or output) occurs in two slots above a trainable variable, no backward call after a run ever returns. Operators that only transform the incoming gradient (negation, scaling, rounding) may be shared.", "quantifier": "all expression graphs with repeated operator nodes", "why_tests_cant": "Requires reasoning over graph sharing and evaluation order.", "anchors": ["include/operation.hpp: unary_operator::forward/backward, binary_operator::forward/backward"]}
{"id": "C29", "title": "Gradient accumulation and reset", "statement": "In the training phase run(e) zeroes the gradient of every variable of the tree; after any sequence of backward calls the gradient equals the sum of the gradients that arrived at trainable occurrences plus, once per trainable occurrence, the regulariser's derivative. In prediction run leaves gradients alone and backward adds what arrives. What this needs of the tensors (gradients of the right shape, storages not shared) holds after any history of binding, overwriting elements, changing phase, flags and regularisers, and training.", "quantifier": "all expression trees, seeds, histories", "why_tests_cant": "State machine over arbitrary histories.", "anchors": ["include/variable.hpp: forward, backward"]}
{"id": "C30", "title": "Element-wise operator derivatives", "statement": "Backward multiplies the incoming gradient by the true derivative at the forward input. asinh, atan, cos, cosh, erf, erfc, exp, exp2, expm1, sin, sinh, tanh, negative, adding or multiplying by a number, square, softsign, sigmoid and exponential do at every input; log, log2, log10, sqrt, pow, asin, acos, atanh, acosh, tan, cbrt and sign do inside their domains; abs, relu, relu6, leaky_relu, clip, hard_sigmoid and selu do exactly where no element is at a corner. elu is right only at positive elements, inverse only where the square of the element is at least eps, softmax only when rows have one element; log1p and softplus are wrong at every other input than zero; gelu, floor, ceil, trunc and rounding are wrong everywhere.", "quantifier": "all real inputs in each operator's domain", "why_tests_cant": "Derivative identities over all reals.", "anchors": ["include/operation.hpp: 3609-4932", "include/activation.hpp"]}
{"id": "C31", "title": "Two-operand operator derivatives", "statement": "A sum (with broadcasting), a matrix product and an element-wise product whose smaller operand repeats along the leading axes route to each operand the gradient given by the true partial derivatives; maximum does exactly when no two elements tie. minimum routes the gradient to the wrong operand at every input, and atan2 has the opposite signs wherever the abscissa is positive.", "quantifier": "all operand shapes and real elements", "why_tests_cant": "Identities over all real pairs.", "anchors": ["include/operation.hpp: maximum, minimum, atan2, hypot, elementwise_product, elementwise_divide"]}
{"id": "C32", "title": "Reductions' gradients", "statement": "sum_reduce and reduce_sum along an axis send the incoming gradient to every element that was summed; reduce_max and reduce_min send it to the extreme element, where that is unique; views and every operator whose backward action is an adjoint (C34-C36, C38, C50, C51) satisfy the same rule. mean_reduce divides by the first extent, or by one for a 1-D input, which is right exactly when that equals the number of elements.", "quantifier": "all shapes, axes, elements and gradients", "why_tests_cant": "Wrong scaling is invisible on 1-D tests.", "anchors": ["include/operation.hpp: sum_reduce, mean_reduce, reduce_sum"]}
{"id": "C33", "title": "What backward does to the gradient it is given", "statement": "An operator's backward should not change the gradient tensor it receives. relu, relu6, leaky_relu, elu, softmax, clip and exponential overwrite it (views pass it on): exactly what backward leaves in the caller's gradient tensor is given, and it is unchanged if the root is neither a view nor such an operator. A sum copies the gradient for each operand, so siblings are not affected (C27), and no leaf's tensor changes.", "quantifier": "all gradients, all graphs", "why_tests_cant": "Shows only through aliasing between siblings.", "anchors": ["include/activation.hpp: relu, relu6, leaky_relu, elu, softmax", "include/operation.hpp: clip, plus_context"]}
{"id": "C34", "title": "Shape-only operators are value preserving and have adjoint gradients", "statement": "In a checked build, whenever reshape, flatten, expand_dims or squeeze answers, all elements are kept in order and backward puts a gradient back into the input's shape; each gives the documented shape. transpose swaps the two indices whatever an earlier run left in its cache, is its own inverse, and its backward is its adjoint.", "quantifier": "all shapes, all elements, all cache contents", "why_tests_cant": "Index permutations over all ranks and extents.", "anchors": ["include/operation.hpp: reshape, flatten, expand_dims, squeeze, transpose"]}
{"id": "C35", "title": "Padding and cropping", "statement": "zero_padding_2d surrounds its input with zeros on every run of any sequence of inputs of one shape; after inputs of different shapes whose padded sizes agree, remains of an earlier input show in the border. cropping_2d cuts out the window and inverts padding with the same margins. Each one's backward is the adjoint of its forward.", "quantifier": "all batch sizes, extents, channels and margins; all sequences of runs", "why_tests_cant": "Four nested index computations with arbitrary margins, and a cache that survives from run to run.", "anchors": ["include/operation.hpp: zero_padding_2d, cropping_2d"]}
{"id": "C36", "title": "Up-sampling and average pooling", "statement": "up_sampling_2d(s) repeats each pixel s x s; average_pooling_2d(s) averages each full s x s block; pooling after up-sampling is the identity; the backward passes are the adjoints, for average pooling only when the extents are multiples of s, and for all other non-empty extents its backward reads outside the gradient.", "quantifier": "all extents, channels, batch sizes, strides", "why_tests_cant": "Block index arithmetic for every extent/stride combination, including non-divisible ones.", "anchors": ["include/operation.hpp: up_sampling_2d, average_pooling_2d"]}
{"id": "C37", "title": "Max pooling across runs", "statement": "max_pooling_2d's output is the largest element of each block on every run. Its backward gives the gradient of a block to every position that was the first largest in any forward run so far and zero elsewhere; so it is right on the first run and can be wrong from the second on.", "quantifier": "all inputs, all histories of forward and backward runs, any strict weak order", "why_tests_cant": "History dependent: needs at least two runs with different maxima.", "anchors": ["include/operation.hpp: max_pooling_2d"]}
{"id": "C38", "title": "Convolution by im2col", "statement": "img2col builds the column matrix with zero padding on every run of any sequence of images of one shape, and its backward is its adjoint; conv2d computes the 2-D convolution sum with the kernel read as [NC, CH, r, c], which is the documented [NC, r, c, CH] for one channel only. The gather table is kept when only its size matches, so an image of another shape can be gathered wrongly or out of bounds; with unequal paddings the number of columns is computed from the row padding.", "quantifier": "all image sizes up to 2^32-1 elements, kernels, paddings, strides, dilations; all sequences of images of one shape", "why_tests_cant": "Index tables over seven parameters and history dependence.", "anchors": ["include/operation.hpp: img2col, general_conv2d, conv2d"]}
{"id": "C39", "title": "Drop-out", "statement": "In prediction phase drop_out is the identity. In training every output is 0 or input/(1-factor) by a mask drawn on the first training run and never changed afterwards; a later larger input reads outside the mask; backward multiplies by the mask but not by 1/(1-factor), so it is the adjoint exactly when the factor is 0.", "quantifier": "all inputs, factors, random draws and run histories", "why_tests_cant": "Randomised and history dependent.", "anchors": ["include/operation.hpp: drop_out"]}
{"id": "C40", "title": "Session identifiers and placeholders", "statement": "Identifiers are unique over any construction history (for fewer than 2^31 nodes; beyond that the counter overflows, which is undefined): a new node's identifier is the number of nodes made before, and two placeholder objects have the same identifier exactly when they are copies sharing one state. A placeholder yields the tensor bound last, through whichever copy it was bound or is read; binding one changes no other; the end of a session empties exactly those bound through session::bind. A session holds each remembered identifier once. Comparison with > is implemented as <.", "quantifier": "all histories of construction, copying, assignment, binding, resetting and session ends", "why_tests_cant": "Uniqueness over unbounded histories.", "anchors": ["include/utils/id.hpp: generate_uid", "include/place_holder.hpp", "include/session.hpp: bind"]}
{"id": "C41", "title": "SGD update law", "statement": "Training a loss with SGD for any number of batches: velocity and weights follow Keras' documented recurrence with the flag inverted (nesterov=true performs the plain momentum update, nesterov=false Nesterov's); the gradient used in each batch is the derivative of the loss plus the regularisers' cost at the current weights; the learning rate of batch n (from 0) is lr0 / batch_size divided by the product of (1 + decay*j) for j <= n, so it compounds and is smaller than lr0 / (1 + decay*n) from the third batch on.", "quantifier": "all expression trees, numbers of batches, batches, initial weights and hyper-parameters", "why_tests_cant": "Needs the closed form over all step counts.", "anchors": ["include/optimizer.hpp: sgd"]}
{"id": "C42", "title": "Optimisers only touch trainable variables", "statement": "Every optimiser's step, whatever gradients it finds, moves exactly the variables that are trainable in the session (each by the optimiser's law), leaves the gradients it consumed at zero, and changes no other storage; the result does not depend on the order in which the session's map is walked. Over a whole training, variables that are not trainable in the session keep their weights and moments, and constants keep their elements.", "quantifier": "all sets of variables, all gradients, all step counts", "why_tests_cant": "Frame condition over all variables.", "anchors": ["include/optimizer.hpp: sgd, adagrad, rmsprop, adadelta, adam, gradient_descent"]}
{"id": "C43", "title": "Training batches cover the data in order", "statement": "Each epoch of fit(x, y, batch, epochs, split) visits the batches 0..loops-1 in order, each once, in learning phase 1; training should use exactly the first (1-split) part, but the code trains on one batch more than the training share, taking it from the validation part, and reports training+1 errors divided by training. Without a validation share the training error is right and the validation error is 0/0. Samples after the last whole batch are never used; fewer targets than needed are undefined behaviour; train_on_batch works on the caller's own tensors.", "quantifier": "all losses, optimisers, data sets, batch sizes, epoch counts and training shares", "why_tests_cant": "Boundary behaviour for every combination of counts.", "anchors": ["include/model.hpp: compiled_model::fit, evaluate, train_on_batch"]}
{"id": "C44", "title": "Learning phase after prediction", "statement": "evaluate runs the loss on every whole batch in order in learning phase 0 and returns the mean; predict runs the model once in phase 0. The phase is not restored: after any program it is what the user assigned last if no fit, evaluate, train_on_batch or predict came after the assignment, and 1 otherwise; the validation batches of fit run in phase 1.", "quantifier": "all losses, data sets, initial phases and call histories", "why_tests_cant": "Global state over histories.", "anchors": ["include/model.hpp: predict, evaluate", "include/config.hpp: learning_phase"]}
{"id": "C45", "title": "MNIST loading", "statement": "A file of images that is a 16-byte header and whole 28x28 images loads as a tensor [n,28,28] with every pixel in place; a file of labels that is an 8-byte header and labels below ten loads as the one-hot matrix. The headers are never looked at and the numbers of images and labels need not agree. Other image files (shorter than a header, or with a partial image) are written past the tensor's end; a label of ten or more sets an element of a later row, or writes past the end when there is none.", "quantifier": "all file contents", "why_tests_cant": "All byte contents.", "anchors": ["include/dataset.hpp: mnist::extract_image, extract_label"]}
{"id": "C46", "title": "Complex arithmetic", "statement": "Complex expressions stand for complex matrices: sum, difference, negation, conjugate, product via three real products, product with a real factor on the right, modulus, polar form. But expression - complex is built as the sum (right only for zero), expression * complex with the factors exchanged (right only if they commute), and evaluating the imaginary part of a product gives -b*d instead of a*d + b*c, because the sums a+b and c+d overwrite a and c before a*c is computed.", "quantifier": "all matrices, all operand leaves and states", "why_tests_cant": "Algebraic identities over all values.", "anchors": ["include/complex_operator.hpp"]}
{"id": "C47", "title": "Composing models", "statement": "model(expr), whose text names operator members that have been moved (it is read as naming their new places; as it stands it does not compile for an operator), gives the model's expression with every placeholder - not only the model's input - replaced by expr, built of new operators with identifiers never used before on the model's own variables. Its value is the model's value for expr's value as input, and a run returns it, and both passes do what they do for an expression built by hand, provided that the operators of model and expr keep their results in different buffers and the model uses no operator twice. The rebuilt operators share the buffers of the originals, so a model applied to two arguments in one expression gives, in the place of the first result, the elements of the second.", "quantifier": "all expressions", "why_tests_cant": "Structural induction over all expressions.", "anchors": ["include/model.hpp: replace_placeholder_with_expression, model::operator()"]}
{"id": "C48", "title": "Freezing weights", "statement": "Setting trainable(false) should stop optimisers from changing the weights. The flag is stored per copy of the variable: the optimiser looks at the session's copy, back-propagation at the copies in the graph. A variable frozen in the session never moves. A variable frozen in the graph only gets a zero gradient: it keeps its weights under any optimiser if it has never been trained, but if it has, SGD with momentum and Adam keep moving it, by an exactly known amount per batch.", "quantifier": "all variables, optimisers, batches, and all combinations of flags over the copies", "why_tests_cant": "Depends on which copy each component holds.", "anchors": ["include/variable.hpp: trainable", "include/model.hpp: make_trainable", "include/session.hpp: remember"]}
{"id": "C49", "title": "repmat tiles", "statement": "repmat(m, r, c) of a matrix is the matrix of r times as many rows and c times as many columns whose element (i, j) is m's element (i mod rows, j mod cols).", "quantifier": "all matrices and repetition counts", "why_tests_cant": "Three nested copy loops with hand-computed offsets must cover every cell exactly once.", "anchors": ["include/tensor.tcc: repmat"]}
{"id": "C50", "title": "The repeat operator", "statement": "repeat(n, axis) repeats every slice along the axis n times in place, as numpy.repeat does; a missing or too large axis means the last one; its backward is its adjoint.", "quantifier": "all shapes, axes, repetition counts and cache contents", "why_tests_cant": "Index arithmetic over all ranks.", "anchors": ["include/operation.hpp: repeat"]}
{"id": "C51", "title": "Spreading for the transposed convolution", "statement": "conv2d_transpose's intermediate step puts pixel (v, z) at (offset + v*row_stride, offset + z*col_stride), zeros everywhere else, with offset kernel-1 in each direction for valid padding; its backward is its adjoint.", "quantifier": "all extents, channels, kernels, strides and paddings", "why_tests_cant": "Four nested index computations with arbitrary strides.", "anchors": ["include/operation.hpp: conv2d_tranpose_intermediate"]}
{"id": "C52", "title": "Same padding", "statement": "Convolution with padding same keeps the number of pixels for stride 1 and an odd kernel, and halves it rounding up for stride 2; for stride s it is n/s (s odd) or (n+1)/s (s even) rounded down, not n/s rounded up; an even kernel with odd dilation loses a pixel.", "quantifier": "all input extents, odd kernels, strides and dilations; stride 1 for even kernels", "why_tests_cant": "Rounding behaviour for every parameter combination.", "anchors": ["include/operation.hpp: conv2d, general_conv2d"]}
{"id": "C53", "title": "A sum after an operator that differentiates through its result", "statement": "exp(x) + y should have gradient exp(x) with respect to x. The sum is computed inside the result of exp, which the backward action of exp then reads: the gradient of x is g*(exp(x)+y), right only if g or y is zero. (The same holds for every operator whose rule uses its result, e.g. tanh and sigmoid, as left operand of a sum of the same shape.)", "quantifier": "all x, y and incoming gradients", "why_tests_cant": "Depends on buffer reuse between a forward action and a later backward action.", "anchors": ["include/operation.hpp: plus, exp", "include/tensor.tcc: 577-586"]}
{"id": "C54", "title": "Update laws of the other optimisers", "statement": "Over any training, Adagrad and gradient descent follow their documented update laws in every batch; RMSprop does from the second batch on (its first batch behaves as with rho = 0); Adam's moments follow the law from the start, but its first two batches are plain gradient descent. The momentum argument of gradient_descent has no effect.", "quantifier": "all expression trees, numbers of batches, batches, initial weights and hyper-parameters", "why_tests_cant": "A test runs a few steps from particular weights and compares with a tolerance; the law is a statement about every step of every run.", "anchors": ["include/optimizer.hpp: adagrad, rmsprop, adam, gradient_descent"]}
{"id": "C55", "title": "AdaDelta degenerates", "statement": "AdaDelta does not adapt anything: the running means of the squared gradients and of the squared updates are the same tensor, so their ratio is 1 and every step is plain gradient descent with learning rate 1/batch_size, whatever rho is.", "quantifier": "all trees, batches, initial weights, and rho between 0 and 1", "why_tests_cant": "Loss still decreases, so no test notices; that the step never depends on rho is a statement about all histories.", "anchors": ["include/optimizer.hpp: adadelta"]}
{"id": "C56", "title": "Changing the optimiser of a model", "statement": "The moments belong to the variables and outlive the optimiser. A batch is processed if and only if every variable trainable in the session has no moments yet or at least as many as the optimiser uses; otherwise it is undefined behaviour (reading past the end of contexts_). In particular, Adam after SGD, Adagrad or RMSprop is.", "quantifier": "all session contents, optimisers and training histories", "why_tests_cant": "Out-of-bounds reads often go unnoticed in a test run.", "anchors": ["include/optimizer.hpp: forward of every optimiser", "include/variable.hpp: contexts"]}
{"id": "C57", "title": "Optimisers move variables the loss does not mention", "statement": "A variable that is trainable in the session but does not occur in the loss is moved as well: the first batch consumes whatever gradient another loss has left there, later ones see a zero gradient and apply only the moments.", "quantifier": "all trees, sessions, batches, optimisers", "why_tests_cant": "Depends on the history of other losses in the process.", "anchors": ["include/optimizer.hpp: forward of every optimiser", "include/session.hpp: remember"]}
{"id": "C58", "title": "Training with squared_loss, mean_squared_error, abs_loss and mean_absolute_error", "statement": "For every model and every target bound to the loss's place holder, running the loss returns the sum (squared_loss, abs_loss) or the mean over all elements (mean_squared_error, mean_absolute_error) of (target - output)^2 or |target - output|, and backward gives every element of every trainable variable the derivative of that sum, divided by the number of samples for the means, plus the regularisers' cost. So the gradient of the means is not the derivative of the reported value but elements-per-sample times it. The target's tensor, which is the user's, is left holding target - output; no other tensor of the user's is changed.", "quantifier": "all model trees whose operators' rules are right where they are used, all shapes, targets and parameters (for the absolute losses: target and output differ everywhere)", "why_tests_cant": "A test compares a few numbers; it cannot show that the gradient is a derivative for every model, nor that no other tensor is written.", "anchors": ["include/loss.hpp:17-51 squared_loss, mean_squared_error, abs_loss, mean_absolute_error", "include/operation.hpp: plus, negative, square, sum_reduce, mean_reduce", "include/model.hpp:246-258 train_on_batch"]}
{"id": "C59", "title": "Running a loss again without binding the target again", "statement": "Running squared_loss, mean_squared_error, abs_loss or mean_absolute_error k times in a row, binding nothing in between, does not give the same value k times: run i compares the target with i times the model's output, because each run leaves target - output in the user's target tensor. After k runs that tensor holds target - k output; no other tensor of the user's has changed.", "quantifier": "all models, shapes, targets and parameters, all k, learning or prediction phase", "why_tests_cant": "A test that runs the loss once per bind never sees it; the statement is about all numbers of runs.", "anchors": ["include/loss.hpp:17-51", "include/operation.hpp: plus, minus", "include/session.hpp: run", "include/model.hpp:246-258 train_on_batch"]}
{"id": "C60", "title": "Training with cross_entropy_loss", "statement": "For every model whose output and target have rows of m >= 2 elements, with exactly one target per row above eps: backward gives every element of every trainable variable, up to eps times the sum of the output's absolute derivatives, the derivative of the cross entropy (summed over all rows) of the smoothed labels and the softmax of the output, plus the regularisers' cost. The value run returns is that sum divided by the first dimension, up to eps per row, unless the softmax of a labelled element is below 2 eps; so the gradient is first-dimension times the derivative of the value. Without the one-label condition the gradient is that of log-sum-exp minus the labelled scores; in particular targets that are probabilities count as labels 1. The target and all other tensors of the user's stay as they are.", "quantifier": "all model trees whose operators' rules are right where they are used, all shapes, targets, parameters, smoothing factors and eps > 0", "why_tests_cant": "A test compares a few gradients with finite differences at some points; the claim is about every model and every score, including the ones where the value is cut off and finite differences are 0.", "anchors": ["include/loss.hpp:59-113 cross_entropy_loss_context", "include/loss.hpp:128-133 cross_entropy_loss", "include/tensor.tcc:1070-1087 softmax"]}
{"id": "C61", "title": "Training with cross_entropy, hinge_loss and mean_squared_logarithmic_error", "statement": "For every model: run of cross_entropy returns -sum t ln y and backward gives every element of every trainable variable its derivative (plus the regularisers' cost), for predictions above 0; hinge_loss returns the mean over all elements of max(0, 1 - t y), and backward the derivative of the sum divided by the first dimension only, where no t y is 1; mean_squared_logarithmic_error returns the sum, not the mean, of (ln(1+t') - ln(1+y'))^2 with t and y clipped, and backward its derivative off the clip limits. Targets and all other tensors of the user's stay as they are, so training can go on.", "quantifier": "all model trees whose operators' rules are right where they are used, all shapes, targets, parameters and clip limits 0 < lower < upper", "why_tests_cant": "A test compares the gradients of a few models at a few points; the claim is about every model and prediction, including the scale of value and gradient for every shape.", "anchors": ["include/loss.hpp:11-19 mean_squared_logarithmic_error", "include/loss.hpp:53-57 cross_entropy", "include/loss.hpp:135-139 hinge_loss"]}
{"id": "C62", "title": "binary_cross_entropy_loss", "statement": "The first run of binary_cross_entropy_loss on any model whose output is an operator returns the mean of -(t ln y + (1-t-y) ln(1-t-y)) where 0 < y and t + y < 1: the two differences ones - ground_truth and ones - prediction share one storage. It is not the mean binary cross entropy. With labels 0 it is the mean of -(1-y) ln(1-y), never above 1/e however wrong the predictions; with label 1 the logarithm of -y is taken. The target is left as it is.", "quantifier": "all models, shapes, targets and predictions; the first run", "why_tests_cant": "A test shows single values; the bound over all wrong predictions and the value for every model and label are statements over all reals and all model trees.", "anchors": ["include/loss.hpp:119-125 binary_cross_entropy_loss", "include/operation.hpp plus, minus, ones_like", "include/tensor.tcc operator +"]}
{"id": "C63", "title": "Batch normalisation over a program's life", "statement": "Whatever the operator was used for before, a training run standardises every channel of its batch: mean 0, mean of squares v/(v+eps). A prediction standardises by moving averages of the training batches' means and variances that start at 0 (after k runs on one batch 1-p^k of its statistics), if the operator's first forward pass was a training run; if it was a prediction, every later prediction returns its input unchanged, however much training follows. No sequence of forward passes fails. backward divides the gradient by sqrt(v+eps); that is the derivative exactly when the gradient of the channel has sum 0 and is orthogonal to the channel's output (amended: in general it is not the derivative). backward on a batch larger than the first one writes outside its buffer; on a smaller one it returns the first batch's shape.", "quantifier": "all sequences of training runs, predictions and backward passes, all batches of all shapes with the same channels, all eps > 0 and momenta", "why_tests_cant": "The statistics depend on the whole history of calls, and the derivative is a statement about all nearby inputs; tests sample a few.", "anchors": ["include/operation.hpp:2245-2370 normalization_batch", "include/utils/context_cast.hpp:10-18 context_cast"]}
{"id": "C64", "title": "The concatenate operator", "statement": "backward of concatenate undoes the concatenation: it cuts every gradient of the result's shape into two gradients of the operands' shapes whose concatenation it is, along any axis, for elements of any type; hence the operator's local rule is the true derivative for real elements and training through concatenations follows C27. The shape announced beforehand is the shape of the result. With an extent 0 anywhere backward divides by zero although the forward pass succeeds (amended); for an axis equal to the rank the announcement reads behind the shape, for a larger one it announces the last axis although the forward pass fails.", "quantifier": "all shapes p ++ a :: q and p ++ b :: q, all axes, all gradients, debug and release", "why_tests_cant": "Tests try a few shapes; the inverse law and the adjointness hold for all ranks, axes and gradients.", "anchors": ["include/operation.hpp:2392-2475 concatenate", "include/tensor.tcc:914-957 concatenate"]}
{"id": "C65", "title": "ceras::vector under any program", "statement": "For any number of vectors and any sequence of constructions, copies, moves, assignments (onto themselves too), resizes, writes, clears and destructions: no invalid memory is read or written, every vector reads as the list it should hold, no two vectors share a block, and the allocator is only given back blocks that are out, with the size they were asked for. After all vectors are destroyed the blocks still out number exactly the move assignments onto a vector that had elements, onto itself too (amended: 'everything is given back' is refuted).", "quantifier": "all element types, all sequences of operations, any number of vectors", "why_tests_cant": "Tests run short fixed sequences and cannot see a leak; ownership is an invariant of every sequence.", "anchors": ["include/utils/vector.hpp:10-127 vector"]}
{"id": "C66", "title": "Dumping an expression as a C++ program", "statement": "serialize of an expression in which no object occurs twice gives a program that declares every object once under its own name, refers only to names declared before, and, run where serialize saved the tensors, leaves under the returned name an expression with the original's operators, printed arguments, weights and flags; it equals the original exactly if every number of a value and every regulariser is read back from its text (amended: they are printed with six digits, so two different values give the same program). The program compiles exactly if these numbers are literals, no variable, place holder, tensor or sub-expression occurs twice, every operator is named after a function, and tensor has the member load_tensor that programs with variables or constants call (amended: it has not, four operators are misnamed, and shared objects are declared twice). Serialising another expression of the same process leaves the first program's files alone; one of another process with the same identifiers replaces the weights silently.", "quantifier": "all expressions, all identifiers, element types whose text is read back exactly", "why_tests_cant": "Tests dump one small expression and print the code; whether every program declares each name once needs injectivity of the names and induction over expressions.", "anchors": ["include/utils/enable_serializer.hpp:10-66", "include/operation.hpp:312-371 serialize, make_argumented_operator_serializer", "include/variable.hpp:207-221", "include/constant.hpp:66-77", "include/place_holder.hpp:136-144", "include/value.hpp:90-97", "include/tensor.tcc:1307-1323"]}
{"id": "C67", "title": "Applying one layer object in several places", "statement": "A layer object (the function object returned by max_pooling_2d, reduce_sum, zero_padding_2d, drop_out and the other factories that keep their result in a buffer) can be applied to several expressions. If no application overwrites a result that is still to be read, running the expression gives its mathematical value and changes no tensor outside the layers' buffers; if every layer object is applied at most once, every operator also keeps its operands and its result for back-propagation. Otherwise (amended: 'applying a layer object is a function' is refuted): with one object in both operands of a binary operator, the operator is given the right result's elements twice; applied directly to its own result, the object causes undefined behaviour whenever the size changes; a result the user holds changes when its object is applied again; and f(g(f(x))) has the right value but leaves the wrong result for back-propagation.", "quantifier": "all expression trees, all layers and operators as functions on tensors, all states earlier runs can leave", "why_tests_cant": "Tests apply every layer once; aliasing between distant uses of one object shows only in combinations, of which there are infinitely many.", "anchors": ["include/operation.hpp:2039-2068 max_pooling_2d and the other factories with forward_cache", "include/operation.hpp:75-95, 168-197 forward", "include/utils/context_cast.hpp:9-18", "include/tensor.hpp:335-345 resize"]}
{"id": "C68", "title": "sliding_2d", "statement": "sliding_2d(p), over any sequence of learning passes and predictions on inputs of one shape: a learning pass moves every channel of every image by the row and column shift drawn for the channel (between -p and p), what leaves the image is lost, what enters is zero; a prediction returns its input. The backward pass is the adjoint of the shift of the last learning pass (amended: also when a prediction came after it, so it is not always the adjoint of the last forward pass; before the first learning pass it reads out of range).", "quantifier": "all shapes, all p, all random numbers, all sequences of passes", "why_tests_cant": "The result is random and the state is carried between runs; tests print a few images.", "anchors": ["include/operation.hpp:2997-3096 sliding_2d", "include/operation.hpp:2745-2975 zero_padding_2d, cropping_2d"]}
{"id": "C69", "title": "argmax and argmin", "statement": "argmax(axis) removes the axis and gives, for every line along it, the index of the first of the largest elements; argmin(axis) the index of the first of the smallest; the announced shape is the shape of the result. An axis of extent 0 reads out of range. The backward pass is zero, which is the derivative exactly where every line has a single largest element: there and only there the result is constant in a neighbourhood of the input.", "quantifier": "all shapes, axes, contents; any strict weak order; argmin for any negation that reverses the order; neighbourhoods of real inputs", "why_tests_cant": "Ties and every position of the axis in the shape would have to be enumerated; local constancy speaks of infinitely many inputs.", "anchors": ["include/operation.hpp:1329-1400 argmax", "include/operation.hpp:1412-1418 argmin"]}
{"id": "C70", "title": "the broadcast operator", "statement": "broadcast(new_shape) repeats the elements of a non-empty input as often as whole copies fit; for shapes NumPy would broadcast the result is NumPy's, for all contents, exactly when the old shape is, after leading ones, a tail of the new one. If the new size is a multiple of the old one, the backward pass is the adjoint of the forward pass (amended: if it is not, the last elements are left over from an earlier run; an empty input divides by zero in a release build).", "quantifier": "all pairs of shapes, all contents, all contents of the cache", "why_tests_cant": "The condition quantifies over all shapes and contents; the leftover elements only show after a run with another input shape.", "anchors": ["include/operation.hpp:464-517 broadcast", "include/tensor.hpp:335-343 resize"]}
{"id": "C71", "title": "Activations and quotients built from other operators", "statement": "swish, tank_shrink and hypot act element by element; divide(x,y) is x/y wherever |y| >= eps (and divides by eps or -eps nearer to zero); crelu puts max(x,0) and max(-x,0) side by side on the last axis. mish and lisht use *, the matrix product: they are defined on square matrices only and are not the functions they are named after. The gradient of swish of a variable is g * swish'(x), but the backward pass of swish, mish or lisht of an operator that needs its input never returns, because the operator occurs twice. tank_shrink of a variable overwrites the variable at every run: after k runs it holds the k-th iterate of x - tanh x.", "quantifier": "all shapes, elements and incoming gradients; all operand expressions; any number of runs", "why_tests_cant": "The formula looks right and forward values on fresh variables pass; sharing, aliasing and the choice of product show only over all expressions and histories.", "anchors": ["include/activation.hpp: swish, silu, crelu, tank_shrink, mish, lisht", "include/operation.hpp: divide, operator /, hypot, minus"]}
{"id": "C72", "title": "Results of earlier runs", "statement": "The tensor a run returns keeps its elements through everything that comes after - new bindings, writes to other tensors, phase changes, further runs and backward passes of the same expression - exactly when the operator that made its storage allocates it (negative, square, clip, softmax, element-wise product, sum_reduce, mean_reduce, a sum that does not fit its left operand). When that operator writes into a buffer of its own (matrix product, element-wise functions, reductions along an axis; views and fitting sums share their operand's storage), every later run returns the same storage: the earlier tensor then shows the later result, under its old shape. When only views lie above a leaf, the result is the leaf's own tensor. So a prediction of x W + b kept for later is overwritten by the next prediction.", "quantifier": "all expressions without harmful sharing, all states, all sequences of later operations", "why_tests_cant": "A test compares a result right after computing it; whether it survives depends on every later run, on the operator at the root and on the batch sizes.", "anchors": ["include/session.hpp: session::run", "include/model.hpp: model::predict", "include/operation.hpp: unary_operator::forward, binary_operator::forward, context_cast of forward_cache"]}
{"id": "C73", "title": "Statistics of tensors", "statement": "variance(ts,axis,keepdims) and standard_deviation(ts,axis,keepdims) hold at every position the population variance (its root) of the line of elements along the axis, whatever the shape, the axis (-1 for the last) and keepdims, except that the only axis of a vector needs keepdims; no existing tensor, the argument included, is changed and the result has its own storage. var(ts) and std(ts) of a whole tensor are NOT those: var is the sum of the squared deviations, i.e. the number of elements times the variance (equal to the variance exactly for one element or equal elements), and std is its root; norm(ts) is the Euclidean norm divided by the number of elements. linspace(start,stop,num,endpoint) gives, for num at least 2, num numbers with a constant step, starting at start and ending at stop (one step before it without the end point).", "quantifier": "all shapes, axes, keepdims flags, element values (reals), heaps; all num >= 2", "why_tests_cant": "A test fixes one shape and one axis; the argument is read after an in-place subtraction through shared storage, which goes wrong only for particular shapes if the operands are exchanged.", "anchors": ["include/tensor.tcc: mean", "include/tensor.tcc: variance", "include/tensor.tcc: standard_deviation", "include/tensor.tcc: var", "include/tensor.tcc: std", "include/tensor.tcc: norm", "include/tensor.tcc: linspace"]}
{"id": "C74", "title": "Format strings", "statement": "fmt::format(s, args...) with places {} in s writes the arguments' texts into the places from left to right, leaves places without an argument and ignores arguments without a place, provided that what is written before the last argument's turn contains no place itself; that holds for arguments whose texts are not empty and contain no brace (amended: in general a place inside an argument's text takes the next argument). Without a place, every {i} is replaced by argument i if there is one, provided that no opening brace occurs in the other text and in the arguments' texts. The text of a container tells its elements if there are at most eight and the first eight otherwise. The text of a char is not the char but two characters (amended).", "quantifier": "all format strings, all lists of arguments, nested to any depth", "why_tests_cant": "Tests format a few literals; that no format string and no argument text breaks the order is a statement about all texts.", "anchors": ["include/utils/fmt.hpp:822-1060 to_string, iterator_to_string, replace_all, replace_once, plain_format, indexed_format, format"]}
{"id": "C75", "title": "Drawing an expression", "statement": "computation_graph(ex), which model::summary prints, is a text that can be read as a drawing in one way only. The drawing has a node with name, shape, identifier (for variables also the lengths and whether it is trainable) for every sub-expression and no other node, and an arrow from a to b exactly if a is an operand of b. Every statement is written once exactly if no object occurs twice in the expression (amended: otherwise shared objects are drawn again, and k objects can give 2^k statements). Two expressions with the same drawing are equal, if their shapes have at most eight lengths (amended: further lengths are not written).", "quantifier": "all expressions with names without braces, line ends and angle brackets (all names of the library)", "why_tests_cant": "Tests print a drawing for a person to look at; that the text determines the expression needs injectivity of the format for all expressions.", "anchors": ["include/operation.hpp:372-453 computation_graph", "include/model.hpp:436-450 summary", "include/utils/fmt.hpp:822-1060"]}
{"id": "C76", "title": "Announced shapes", "statement": "The shape that shape() of an expression announces, and that layers are sized with before any data are there, is the shape of the tensor that its forward() makes, for every operator with an output shape calculator and every expression made of them, whatever earlier runs left in the buffers. Amended to what the code does: flatten counts in an int and announces rightly exactly if a batch element has fewer than 2^31 elements; the element-wise product announces the operand with more axes but has the shape of the one with more elements; cross_entropy_loss announces an operand's shape but makes one number; asking reduce_sum, reduce_max and reduce_min with their default axis for the shape of two or more extents writes behind a vector's end; an unknown batch does not survive a reshape.", "quantifier": "all expressions of 21 unary and 8 binary operators with any parameters, all shapes, all contents of buffers, debug and release builds", "why_tests_cant": "Tests compare a few shapes; agreement of two separately written computations over all parameters, including wrap-around at 2^64 and 2^32, is a statement about unbounded families.", "anchors": ["include/operation.hpp:28-38 and all output shape calculators", "include/operation.hpp:98-102, 211-220 shape", "include/place_holder.hpp:33-49, 78-84", "include/layer.hpp:113, 240, 297"]}
{"id": "C77", "title": "Networks of layers run for every batch size", "statement": "A network built from Input, Dense, Conv1D, Conv2D, Conv2DTranspose, activations, Softmax, Reshape, Flatten, pooling, up-sampling, Concatenate, Add, Subtract and Multiply, expressions being shared at will, that is well formed judged by the shapes of one batch element, layer by layer, can be built without data; its variables have the expected shapes; every expression announces its shape for a batch of one; and for every batch size (no array beyond 2^32-1 elements), every input and every value of the variables each expression has a value, also with all debug assertions on, and every value has the shape of the batch. Amended to what the code does: a convolution is well formed only if rows and columns get the same padding - with \"same\" and kernels that are not square no value ever has the right shape, and Conv1D with \"same\" and an odd kernel of three or more never runs in a debug build; a transposed convolution with \"same\" does not enlarge the image whatever its stride; Reshape, Concatenate and Add announce shapes for operands with which they cannot run; Input() without a shape followed by Dense aborts.", "quantifier": "all well formed programs of layers of any length, all parameters of layers, all batch sizes, all inputs and variable values, all contents of buffers, debug and release builds", "why_tests_cant": "Tests run a few architectures with a few batch sizes; that well-formedness of one batch element implies a run for every batch size is a soundness statement about all programs.", "anchors": ["include/layer.hpp:17-20, 99-246, 329-488", "include/operation.hpp:1711-1760 general_conv2d", "include/operation.hpp:1855-1881 conv2d_transpose", "include/place_holder.hpp:33-49"]}
{"id": "C78", "title": "A network computes the function its layers denote, sample by sample", "statement": "Every expression of a well formed network (C77) of Dense, Conv1D, Conv2D, Conv2DTranspose, activations, Softmax, Reshape, Flatten, pooling, up-sampling, Concatenate, Add, Subtract and Multiply has, for every batch, a value, and every value it can have - debug or release build, whatever earlier runs with other batch sizes left in buffers and index tables - is the batch whose sample i is what the layers denote, in textbook terms, of sample i of the input: x.W + b, sums over the kernel window with zeros around the image, largest and mean of the window, exp(v - max) / (sum + eps) over the last axis, and so on. So results are deterministic, and the result for a sample does not depend on the size of the batch, the place in it or the other samples. Amended to what the code does: weights of a convolution are read as filters of channels x rows x columns although the variable has the shape [out, rows, columns, channels], and a transposed convolution turns the kernels around exactly if there is one input channel or a kernel of one pixel.", "quantifier": "all well formed programs of layers of any length, all parameters, batch sizes, inputs and variable values, all states earlier runs may have left, debug and release builds", "why_tests_cant": "Tests compare outputs for a few fixed inputs; that sample i of the result is a function of sample i alone, for every network and every batch, quantifies over all programs, data and histories.", "anchors": ["include/layer.hpp:17-20, 99-246, 329-488", "include/operation.hpp:1525-1650 img2col", "include/operation.hpp:1711-1760 general_conv2d", "include/operation.hpp:1855-1881 conv2d_transpose", "include/operation.hpp:53-200 forward of operators"]}
{"id": "C79", "title": "Training a chain of layers: every gradient is the derivative of the function the layers denote", "statement": "Take any well formed chain of Dense, Conv2D, Conv1D, Conv2DTranspose, Reshape, Flatten, UpSampling2D, AveragePooling2D (extents multiples of its size) and activation layers. After a run in the training phase on any batch, backward( g ) gives every element of every variable of every layer the derivative, with respect to that element, of <g, the function the layers denote> (C78) plus the regularisers' cost; with squared or absolute differences to a target as loss, run returns the loss of the denoted function and backward( 1 ) gives the derivative of c times the summed differences plus the cost (C58). An activation has to have a right backward action at the values it is applied to (C30): always for tanh, sigmoid, softsign, exponential, sin, cos and square, for relu and its relatives where no element is at a kink.", "quantifier": "all chains of these layers of any length, all parameters, batch sizes, inputs, values of variables, regularisers, gradients g, debug and release builds", "why_tests_cant": "A test compares a few gradients of one network with finite differences; that the chain of all backward actions computes the derivative of the denoted function for every network and all weights is a statement about all programs and all reals.", "anchors": ["include/layer.hpp:99-136, 235-246, 402-488", "include/operation.hpp:420-657 plus and multiplication of expressions", "include/operation.hpp:1115-1513 views and transpose", "include/operation.hpp:1540-1760 img2col and general_conv2d", "include/operation.hpp:2074-2206 average pooling and up-sampling", "include/session.hpp", "include/loss.hpp:17-51"]}
{"id": "C80", "title": "Fitting a chain of layers: batch after batch, every weight makes the optimiser's step with the derivative at the weights reached", "statement": "Take a well formed chain of layers as in C79, compare its output with targets by squared or absolute differences, and train on any sequence of batches that fit (their sizes may differ), with any of the optimisers. As long as the layers can be taught at the weights reached, train_on_batch succeeds every time and returns the loss of the current predictions; every element of every variable that the session calls trainable makes the optimiser's documented step with g the derivative, with respect to that element and at the weights reached so far, of the objective of this batch's predictions plus the regularisers' cost; the other variables keep their weights. If all layers can be taught everywhere (all but Softmax, MaxPooling2D and kinked activations; average pooling of multiples) and differences are squared, every training runs to its end without further assumptions, and gradient descent without regularisers is x := x - rate * derivative.", "quantifier": "all chains of these layers, all sequences of batches of any sizes, all initial weights, optimisers with any parameters, regularisers, debug and release builds", "why_tests_cant": "A test trains one network for a few epochs and looks at the loss going down; that each of arbitrarily many steps uses the derivative at the weights then reached, with nothing left over from earlier batches, is an invariant over all executions.", "anchors": ["include/model.hpp:198-262 train_on_batch", "include/session.hpp:44-63 bind and run", "include/optimizer.hpp:26-360", "include/loss.hpp:17-51", "include/layer.hpp:99-136, 235-246, 402-488", "include/variable.hpp:78-112 forward and backward"]}
{"id": "C81", "title": "Views of arrays and strided iterators", "statement": "A view (view_2d, view_3d, view_4d, view<T, N>) of shape s on any part of an array: v[i0][i1]... with every index below its extent is the element at the row-major position; no pointer on the way leaves the array; and every element of the part is reached by exactly one list of indices. Indices out of range stop a debug build for all but the last four dimensions only: in matrices, cubes and 4-D views they go to another element or out of the array. Rows and columns of a matrix are what row_begin/row_end and the strided iterators of col_begin traverse; but forming col_end is undefined behaviour for every column but the first of a view of a whole array. In a transposed view v[j][i] is element (i, j), and row_begin and col_begin ignore the transposition. Strided iterators obey the laws of random access iterators inside the array.", "quantifier": "all ranks, shapes, positions in the array, index lists, strides (also negative), debug and release builds", "why_tests_cant": "A test writes and reads a few elements of a small view, and a pointer past the end of a column is never noticed; that the addressing is a one-to-one correspondence without wrap-around for all shapes and ranks is a statement about all index lists.", "anchors": ["include/utils/view.hpp:11-249", "include/utils/stride_iterator.hpp:9-101"]}
{"id": "C82", "title": "Fitting with any loss, and classifiers: every weight follows the derivative of the loss it is trained with", "statement": "Take a well formed chain of layers as in C79 and any of squared_loss, mean_squared_error, abs_loss, mean_absolute_error, cross_entropy, hinge_loss, mean_squared_logarithmic_error and cross_entropy_loss, and train on any sequence of batches that fit, with any of the optimisers. As long as the layers can be taught and the loss is differentiable at the predictions reached, train_on_batch succeeds every time and returns the loss of the current predictions, and every element of every trainable variable makes the optimiser's step with the derivative of the objective at the weights reached, plus the regularisers' cost: exactly, or for cross_entropy_loss up to eps times the derivatives of the scores. A classifier made of layers that can be taught everywhere, trained with cross_entropy_loss on one-hot targets, can be trained on any batches whatever, and each step of gradient descent goes against the derivative of the cross entropy of labels and softmax summed over the batch, although what run returns is about that sum divided by the number of samples.", "quantifier": "all chains of these layers, all eight losses, all sequences of batches of any sizes, all initial weights, optimisers with any parameters, label smoothing, regularisers, debug and release builds", "why_tests_cant": "Tests of the examples look at falling losses and rising accuracies; a wrong factor, sign or a stale gradient in one of eight losses still trains. That each step uses the derivative at the weights then reached is an invariant over all executions.", "anchors": ["include/loss.hpp:17-145", "include/model.hpp:198-262 train_on_batch", "include/optimizer.hpp:26-360", "include/layer.hpp:99-136, 235-246, 402-488", "include/tensor.tcc:1070-1087 softmax", "include/variable.hpp:128-190 backward and reset_states"]}
{"id": "C83", "title": "string2float32: what number a text denotes", "statement": "float32{ text } reads the longest numeral at the beginning of the text (spaces, an optional +, an optional -, digits, an optional fraction, an optional exponent; any of them may be missing) and ignores the rest without complaint. It never reads behind the terminating NUL. In exact arithmetic the result is the number the numeral denotes; the only undefined behaviour is the overflow of an int by an exponent or a fraction that is too long. In float, whole numbers up to 2^24, however written, are read exactly; decimal fractions are not read as the nearest float: float32{ \"0.09\" } differs from 0.09f.", "quantifier": "all texts, all memory behind them, all numerals, any floating-point arithmetic for safety; round to nearest even, without overflow of the float, for exactness", "why_tests_cant": "A test reads a few numerals; that every text is read as its longest numeral, without reading too far, is about all texts.", "anchors": ["include/utils/float32.hpp:12-85 string2float32", "include/utils/float32.hpp:106-123 float32"]}
{"id": "C84", "title": "fit trains a network on the data set, batch after batch and epoch after epoch", "statement": "compiled_model::fit( x, y, batch_size, epochs ) on a chain of layers that can be taught whatever their inputs, with any of the losses of C82 and any optimiser, and with every batch trained on (a validation_split of 0, or so small that at most one batch is not meant for training): fit runs to its end whatever the learning phase before; batch k consists of rows l*b to (l+1)*b of the data set, l = k mod (samples / b); at every batch every element of every trainable variable makes the optimiser's step with the derivative of the objective of that batch at the weights reached (for cross_entropy_loss: up to eps times the derivatives of the predictions), and frozen variables keep their weights; the error returned for an epoch is the sum of the losses of its batches, each at the weights it met, divided by the number of training loops. Rows beyond the last full batch are never used.", "quantifier": "all chains of layers that can be taught, all losses of C82, all optimisers, all data sets, all batch sizes, all numbers of epochs, all initial weights", "why_tests_cant": "A test looks at the loss after a few epochs on one data set; that fit is the optimiser's iteration on the derivative of the network's loss on the right rows is about all of them, and fit reuses the same two tensors for all batches while the losses overwrite their targets.", "anchors": ["include/model.hpp:163-226 fit", "include/session.hpp:44-63 bind, run", "include/tensor.hpp:467-471 as_scalar", "include/optimizer.hpp:27-363"]}
{"id": "C85", "title": "Random tensors and initial weights: which numbers, how many, and what random_seed does", "statement": "random( shape, min, max ) has prod(shape) elements min + u*(max-min) for the next numbers u of the generator, so they lie in [min, max), and is undefined exactly for max < min; randn the first numbers of a new distribution object; truncated_normal exactly the first numbers between the limits, the generator standing behind the last one, and it ends exactly if there are enough such numbers (never for lower > upper); poisson draws with each element rounded down as mean and is undefined exactly if an element is below 1 or at least 2^63. The variables of any well-formed network get as many elements as their shapes say: biases zeros, kernels numbers within sqrt(6/(a+b)) of their first two extents a, b; that is Glorot's bound for dense layers. AMENDED: it is Glorot's bound for a convolution only with kernels of one pixel on one channel, otherwise it is larger and values beyond Glorot's bound occur; a shape of fewer than two extents is undefined; and assigning random_seed, documented as the way to reproduce results, has no effect: removing all assignments from a program changes nothing it sees, only the clock at its start matters.", "quantifier": "all generators, all distributions, all shapes and limits, all well-formed networks, all programs of random tensors and assignments to random_seed", "why_tests_cant": "A test of random numbers sees one run with one seed; that assignments to the seed never matter, that a rejection loop ends, and that no weight is out of range are about all generators and programs.", "anchors": ["include/tensor.hpp:23-34 random_seed, random_generator", "include/tensor.tcc:826-905 randn, truncated_normal, poisson, random, rand, random_like, randn_like, glorot_uniform", "include/layer.hpp:118-119, 179-180, 241-242 initial values"]}
{"id": "C86", "title": "Fitting with a validation split: validation batches leave the model alone", "statement": "compiled_model::fit( x, y, batch_size, epochs, verbose, validation_split ) on a chain of layers that can be taught whatever their inputs, any of the losses of C82 and any optimiser, for every number training_loops that the split gives: fit runs to its end; batch l of an epoch is trained on if l <= training_loops, exactly as in C84, with the optimiser's count of steps advanced by these batches only; after every other batch all weights and all of the optimiser's moments are as before, although the loss was run in the learning phase on the same tensors; the errors returned are the sums of the losses of the trained and of the other batches, each at the weights it met, divided by training_loops and by loops - training_loops. (AMENDED as in C43: one batch of the validation share is trained on, so both divisors are wrong by one.)", "quantifier": "all well-formed chains of layers, all losses and optimisers, all data sets, batch sizes, numbers of epochs and splits, all initial weights, moments and graph states", "why_tests_cant": "A test sees one split; that no validation batch ever changes a weight, in any network at any epoch, needs the frame of running a loss: which storages a forward pass may write.", "anchors": ["include/model.hpp:163-226 compiled_model::fit", "include/session.hpp:58-63 run", "include/variable.hpp:72-83 forward"]}
{"id": "C87", "title": "Evaluating a model returns the mean loss and changes nothing", "statement": "compiled_model::evaluate( x, y, batch_size ) on a chain of layers with any of the losses of C82, the layers and the loss being differentiable at the present weights and batches: it runs to its end and returns the sum of the losses of the full batches, all at the present weights, divided by their number (no value if there is no full batch); the losses are those the learning phase would give. No weight, moment or flag changes, the session is ready for training afterwards, and the learning phase is 1 whatever it was before. The samples after the last full batch are not seen.", "quantifier": "all well-formed chains of layers, all losses, data sets and batch sizes, all weights, moments and graph states", "why_tests_cant": "That evaluation has no side effect on training, and that the prediction phase computes the same as the learning phase, is about all networks and all states of the graph.", "anchors": ["include/model.hpp:94-138 compiled_model::evaluate", "include/variable.hpp:72-83 forward", "include/operation.hpp:75-88, 168-197 forward"]}
{"id": "C88", "title": "The life of a compiled model: any sequence of calls behaves as a machine that knows only weights, moments and a count", "statement": "For a compiled model of layers that can be taught whatever their inputs, any of the losses of C82 and any optimiser, every sequence of calls of fit, evaluate, train_on_batch and predict and of assignments to learning_phase, with arguments that fit the network, runs to its end and refines an abstract machine whose state is nothing but the weights, the optimiser's moments and the number of batches learnt. A batch to be learnt makes every element of every trainable variable take the optimiser's step with the derivative of the batch's objective plus the regularisers' cost at the present weights; nothing else changes weights or moments. predict returns the network's value at the present weights; train_on_batch returns the loss at the weights before the step, although it reads the loss's tensor only after the optimiser has run; fit and evaluate return the quotients of C86 and C87. Hence neither the learning phase a call finds nor tensors and bindings left by earlier calls matter. The phase is 1 after every call but an assignment of 0.", "quantifier": "all well-formed chains of layers, all losses and optimisers, all finite sequences of calls with all their arguments, all initial weights, moments and graph states", "why_tests_cant": "Tests run a few fixed scripts; that calls never interfere through the graph's shared tensors, caches, bindings and the global phase is a statement about all interleavings.", "anchors": ["include/model.hpp:94-138 evaluate", "include/model.hpp:163-226 fit", "include/model.hpp:246-262 train_on_batch", "include/model.hpp:345-359 predict", "include/session.hpp:42-63 bind, run", "include/config.hpp learning_phase"]}
{"id": "C89", "title": "Every build of the library computes the same matrix product", "statement": "gemm stores the product of the (possibly transposed) row-major factors in C and changes no other element, whichever way the library is compiled: plain loops, the column-major BLAS called with swapped factors, or CUDA with its grow-only device buffer, and whatever the automatic measurement of the CUDA threshold yields. Hence any sequence of products leaves the same memory in any two builds. With extents of zero the builds do not agree: the plain loops store the (empty or zero) product, while CBLAS stops the program iff C's rows or the rows of a stored factor are empty.", "quantifier": "all builds, all pointers and extents between 1 and 2^31-1 (all below 2^31 for the empty products), all four transpositions, all contents of memory and of the device buffer, all buffer sizes and thresholds, all sequences of products, float and double", "why_tests_cant": "A test suite runs one build on one machine; which branch is taken depends on timing, and a wrong leading dimension shows only for non-square factors in one of the four transpositions.", "anchors": ["include/tensor.tcc:426-457 gemm_cpu", "include/tensor.tcc:459-521 update_cuda_gemm_threshold", "include/tensor.tcc:523-553 gemm", "include/backend/cblas.hpp:36-74 cblas_gemm", "include/backend/cuda.hpp:290-334 cuda_memory_cache", "include/backend/cuda.hpp:386-440 cuda_gemm"]}
{"id": "C90", "title": "Every tensor has its own shape, although shapes live in buffers inside their allocators", "statement": "shape_ is a std::vector whose allocator hands out one and the same buffer inside itself for every small request. In any program of constructions, copies, moves, assignments, resize, reshape, deep_copy and destructions, shape() of every tensor nevertheless returns the shape it was last given, or that of the tensor it was copied or assigned from at that time; changing or destroying one tensor changes no other's shape, no element is read that was not written, and no heap block survives the tensors. Beyond the buffer the allocator requests eight times the elements it gives back, so that with sized deallocation the promise holds up to 16 dimensions and fails for a tensor of 17 dimensions reshaped to 18, and for one of 33 dimensions.", "quantifier": "all finite programs over any number of tensors, all shapes (up to 16 dimensions under sized deallocation)", "why_tests_cant": "Sharing and dangling pointers show only after particular sequences of growth, copying and destruction; shapes in tests have two to four dimensions.", "anchors": ["include/utils/buffered_allocator.hpp:33-66 allocate, deallocate", "include/tensor.hpp:52 shape_", "include/tensor.hpp:108-147 copy and move", "include/tensor.hpp:291-313 shape, deep_copy", "include/tensor.hpp:335-368 resize, reshape"]}
{"id": "C91", "title": "Images are written to the file and in the format their name says, and read back; numbers are scaled to bytes in order", "statement": "imageio::imwrite of a 2D or 3D tensor of bytes to a path ending in a dot and an extension stores exactly the tensor's elements, in the encoding the extension names (png, bmp, tga, jpg, jpeg), or as png under the path with .png appended if the extension is unknown; it returns true exactly if the file could be written and changes no other file. imread of a png written so gives the same elements. Numbers are scaled so that the smallest becomes 0, order is kept, no conversion is undefined, no byte exceeds 254 and, if the largest is at least numeric_limits::min(), bytes are 255 (x - min) / (max - min) rounded down, up to the 1e-10 in the denominator. Deviations, all proved: a path without a dot throws although .png is meant to be appended; .hdr reads beyond the end of tensors of bytes; all-negative images lose contrast because amax starts at numeric_limits::min(); since the first extent is passed as the width of row-major data, element (i, j) is seen at row i and column j exactly in squares, and at column i and row j exactly in single rows or columns; imresize of a 2D tensor reads beyond its end.", "quantifier": "all tensors of bytes and numbers, all paths and extensions, all files and sets of writable files, all extents", "why_tests_cant": "Whether pixels come out skewed depends on the extents, and square test images hide it; the classes of paths and value ranges are unbounded.", "anchors": ["include/utils/imageio.hpp:12-27 imresize", "include/utils/imageio.hpp:29-39 imread", "include/utils/imageio.hpp:41-80 direct_imwrite", "include/utils/imageio.hpp:82-97 imwrite", "include/tensor.tcc:1002-1037 amax, amin"]}
{"id": "C92", "title": "Loops with a progress bar run as without one, and what the bar shows", "statement": "for ( auto x : tq::dm( container ) ), in a terminal of at least 40 columns and whatever the clock does, runs its body exactly once for every element, in order; before the k-th of n bodies, and once after the last, a frame is shown if the clock asks for it or k >= n, with k * b / n of b = columns - 40 cells full and the right texts. tq::trange( first, last ) counts from first up to last. As long as the texts never become shorter, the line shows exactly the last frame. color::rize shows its text between a colour and a reset, and takes unknown colours as the default. Deviations, all proved: without a terminal at standard input the width is an uninitialised variable, and below 40 columns every loop is undefined, even over nothing (exact characterisation); the bar is full before the last body is run; when texts become shorter remains of earlier frames stay, because blanks are counted in bytes; trange with last below first overflows instead of doing nothing; the background colour Magenta is unknown.", "quantifier": "all lists of elements, all terminals, all clocks and texts, all ranges of ints, all colours", "why_tests_cant": "What is shown depends on the clock, and whether a loop is defined on the terminal: tests run with one terminal and never see the line of the terminal.", "anchors": ["include/utils/tqdm.hpp:38-50 get_terminal_width", "include/utils/tqdm.hpp:92-203 clamp, progress_bar", "include/utils/tqdm.hpp:207-356 iter_wrapper, dm_for_lvalues", "include/utils/tqdm.hpp:466-554 int_iterator, range, trange", "include/utils/color.hpp:41-153 rize"]}
{"id": "C93", "title": "assign: what the variable, the result and the other operands are", "statement": "Running assign( x, v ) gives v, and every tensor that shares v's storage, the elements of x, leaves all other tensors alone and returns x. In an expression whose assignments give variables as many elements as they have, every variable keeps its shape; if no variable that is assigned to is also an operand, the result is that of the expression without its assignments, and every variable then holds what was assigned to it last. Deviations, both proved: an assignment of another number of elements leaves the variable with its old shape and the new elements (exactly then the shape is wrong); a variable that is assigned to anywhere in the expression before the operator that uses it runs is seen with its new elements even if it was read before: v + assign( w, v ) is w + w. In general the result is that of the reading in which variables are looked at when the operator that uses them runs.", "quantifier": "all expressions of variables, element-wise operators and nested assignments, all tensors, all element types", "why_tests_cant": "The order in which operands are read and storages overwritten depends on the expression; the library's own test assigns one variable to another of the same shape and prints them.", "anchors": ["include/operation.hpp:4834-4862 assign", "include/operation.hpp:168-197 binary_operator::forward", "include/variable.hpp:72-83 forward", "include/tensor.hpp:354-368 reshape", "test/layer_assign.cc"]}
{"id": "C94", "title": "Loops over range, enumerate and reverse: which bodies run, in which order, and what is written", "statement": "A loop over range( first, last, step, equal ) ends exactly if some of first, step first, step( step first ), ... equals last, and its body is then run once for each of those before, in order; it + n is n steps. For ints and steps of d > 0 these are first, first + d, ..., last - d if d divides last - first and last is not below first; otherwise the loop passes last and overflows. For unsigned longs ( last - first ) mod 2^64 values are visited, around the end if last is below first. enumerate( c ) gives every element c had when the loop began with its position, in order, whatever the body does to c. reverse( c ) gives the elements from the last to the first, and what the body writes is written to c. Deviations, both proved: enumerate holds a copy of c, so whatever the body writes through the references it is given, c stays; a loop over reverse of a temporary is undefined.", "quantifier": "all element types, step functions and comparisons, all bodies, all containers, all ints and unsigned longs", "why_tests_cant": "Whether a loop ends, and where it overflows, depends on first, last and the step together; that writes through enumerate are lost is seen only by tests that write.", "anchors": ["include/utils/range.hpp:23-160 detailed_range, range", "include/utils/enumerate.hpp:8-38 enumerate", "include/utils/reverse.hpp:36-58 reverse"]}
