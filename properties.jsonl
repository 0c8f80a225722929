{"id": "C01", "title": "Decoding is division by the scale", "statement": "Decoding a ring integer t with an encoder of scale s = base**precision yields the number t/s, for negative as well as non-negative t; a floating-point tensor is refused with ValueError and precision 0 returns the tensor unchanged.", "quantifier": "every integer t, every base >= 1 and precision >= 0", "why_tests_cant": "the decode formula splits t into a truncated quotient, a correction for negatives and a patched remainder; tests only visit a few values and never the exact negative multiples of the scale for all scales", "anchors": ["src/sympc/encoder/fp_encoder.py:FixedPointEncoder.decode"]}
{"id": "C02", "title": "Fixed-point encoding loses less than one unit in the last place", "statement": "Encoding a number v and decoding it again gives a number of the same sign, no larger in magnitude, and closer than 1/scale to v; numbers that are multiples of 1/scale come back exactly.", "quantifier": "every rational v (the ideal value before machine rounding) and every scale >= 1", "why_tests_cant": "an error bound over all inputs cannot be sampled", "anchors": ["src/sympc/encoder/fp_encoder.py:FixedPointEncoder.encode", "src/sympc/encoder/fp_encoder.py:FixedPointEncoder.decode"]}
{"id": "C03", "title": "Splitting a secret and reconstructing it is lossless", "statement": "Splitting a secret among n parties and reconstructing from all shares returns exactly the encoded secret, whatever the random values drawn; the share with index k is the one given to party k. Splitting for fewer than two parties is an error.", "quantifier": "every secret tensor, every number of parties n >= 2, every outcome of the random generators", "why_tests_cant": "randomness and party count are unbounded", "anchors": ["src/sympc/tensor/mpc_tensor.py:MPCTensor.generate_shares", "src/sympc/tensor/mpc_tensor.py:MPCTensor.reconstruct", "src/sympc/tensor/share_tensor.py:ShareTensor.reconstruct", "src/sympc/tensor/share_tensor.py:ShareTensor.distribute_shares"]}
{"id": "C04", "title": "All but one share reveal nothing about the secret", "statement": "For any two secrets of the same shape and any party left out, there is a one-to-one correspondence between the random draws used to share one and the other under which all remaining parties hold identical shares: with uniform draws over the ring, any n-1 parties' view has the same distribution whatever the secret.", "quantifier": "every pair of secrets, every n >= 2, every excluded party, every draw in the full ring", "why_tests_cant": "a statement about distributions over 2^64 values per element; no finite run can show it", "anchors": ["src/sympc/tensor/mpc_tensor.py:MPCTensor.generate_shares"]}
{"id": "C05", "title": "Sharing a value that lives at a party", "statement": "Building a shared tensor from a value held remotely by one of the session's parties reconstructs to that (encoded) value without the value leaving the party; a holder that is not one of the session's parties is refused.", "quantifier": "every secret, every n, every owning party, every state of the zero-sharing generators; every holder outside the session", "why_tests_cant": "the outsider case silently yields a different value and is not exercised by any test; generator states are unbounded", "anchors": ["src/sympc/tensor/mpc_tensor.py:MPCTensor.__init__", "src/sympc/tensor/mpc_tensor.py:MPCTensor.generate_przs"]}
{"id": "C06", "title": "Zero shares add to zero after any history", "statement": "After any sequence of pseudo-random zero-share and random-share requests made to all parties together, the next zero shares of the n parties add up to zero in the requested ring, and the pairwise generators of neighbouring parties stay synchronised.", "quantifier": "every n >= 1, every ring (2^8..2^64, 2, 67), every history of requests, every shape, every generator", "why_tests_cant": "histories are unbounded; desynchronisation only shows after many calls", "anchors": ["src/sympc/session/session.py:Session.przs_generate_random_share", "src/sympc/session/session.py:Session.prrs_generate_random_share", "src/sympc/session/session_manager.py:SessionManager._setup_przs"]}
{"id": "C07", "title": "Random replicated sharings are consistent", "statement": "After any history of joint requests the pseudo-random replicated shares obtained by three parties agree on every common share, so they are a valid sharing of one random value.", "quantifier": "every ring, every history of joint requests, every generator, three parties", "why_tests_cant": "histories are unbounded", "anchors": ["src/sympc/session/session.py:Session.prrs_generate_random_share"]}
{"id": "C08", "title": "Addition and subtraction of shared tensors", "statement": "x + y and x - y on shared tensors (with broadcasting), and adding or subtracting a public value, reconstruct to the ring sum/difference of the operands; subtracting a shared value from a public one gives public minus shared.", "quantifier": "all operands, all sharings of them, every n >= 1", "why_tests_cant": "over all ring values including wrap-around, all sharings and all party counts", "anchors": ["src/sympc/tensor/mpc_tensor.py:MPCTensor.add", "src/sympc/tensor/mpc_tensor.py:MPCTensor.sub", "src/sympc/tensor/mpc_tensor.py:MPCTensor.rsub", "src/sympc/tensor/share_tensor.py:ShareTensor.add", "src/sympc/tensor/share_tensor.py:ShareTensor.sub", "src/sympc/tensor/share_tensor.py:ShareTensor.rsub"]}
{"id": "C09", "title": "Shape operations commute with reconstruction", "statement": "Transposing, reshaping, slicing, repeating, rolling or summing a shared tensor and reconstructing equals reconstructing first and applying the same operation.", "quantifier": "every linear index operation, every tensor, every n and sharing", "why_tests_cant": "unbounded shapes and sharings", "anchors": ["src/sympc/tensor/mpc_tensor.py:MPCTensor.hook_method", "src/sympc/tensor/share_tensor.py:ShareTensor.hook_method", "src/sympc/tensor/replicatedshare_tensor.py:ReplicatedSharedTensor.hook_method"]}
{"id": "C10", "title": "Shared multiplication is exact in the ring", "statement": "The Beaver-triple protocol applied to sharings of x and y, with any valid triple for the operation, yields shares whose sum is the ring product of x and y before rescaling, for element-wise multiplication with broadcasting, matrix product and convolutions.", "quantifier": "all x, y, all sharings, all valid triples, every n >= 1, every bilinear tensor operation", "why_tests_cant": "2^64-sized state per element and unbounded parties", "anchors": ["src/sympc/protocol/spdz/spdz.py:mul_master", "src/sympc/protocol/spdz/spdz.py:mul_parties", "src/sympc/protocol/spdz/spdz.py:spdz_mask"]}
{"id": "C11", "title": "Opened masks reveal nothing about the operands", "statement": "The two values opened during a shared multiplication are, for any fixed operands, a one-to-one function of the triple's random parts; for any two operand pairs the same opened values arise from equally many triples.", "quantifier": "all operand pairs, all triples", "why_tests_cant": "a statement about distributions", "anchors": ["src/sympc/protocol/spdz/spdz.py:spdz_mask", "src/sympc/protocol/spdz/spdz.py:mul_master", "src/sympc/protocol/beaver/beaver.py:_get_triples"]}
{"id": "C12", "title": "Two-party rescaling is accurate to one unit unless the shares wrap", "statement": "Dividing both shares of z locally by the scale gives a sharing of z/scale within one unit in the last place whenever the two shares add to z without wrapping; of the 2^64 possible first shares exactly |z+1| wrap, and those give an error of about 2^64/scale.", "quantifier": "every ring value z, every first share, every scale >= 2", "why_tests_cant": "the failing shares are too rare for tests and the bound is over all of them", "anchors": ["src/sympc/protocol/spdz/spdz.py:mul_parties", "src/sympc/protocol/spdz/spdz.py:public_divide", "src/sympc/tensor/share_tensor.py:ShareTensor.div"]}
{"id": "C13", "title": "The wrap counter counts wraps", "statement": "The value returned for a list of ring values is the number of times their true sum exceeds the ring, i.e. true sum = wrapped sum + 2^64 * count.", "quantifier": "every non-empty list of 64-bit values", "why_tests_cant": "the boundary case is one in 2^128", "anchors": ["src/sympc/utils/mpc_utils.py:count_wraps"]}
{"id": "C14", "title": "Public division with three or more parties", "statement": "Dividing a shared tensor by a public positive integer among n >= 3 parties gives the quotient within n units in the last place (provided the masked value does not wrap).", "quantifier": "every x, every sharing, every mask, every divisor, every n >= 3", "why_tests_cant": "depends on the wrap count of random shares, which fresh shares never exercise", "anchors": ["src/sympc/protocol/spdz/spdz.py:public_divide", "src/sympc/protocol/spdz/spdz.py:div_wraps", "src/sympc/protocol/beaver/beaver.py:count_wraps_rand"]}
{"id": "C15", "title": "Operations leave their operands unchanged", "statement": "Evaluating an arithmetic operation never changes the value the operand tensors reconstruct to afterwards.", "quantifier": "every operation, every operand, every n", "why_tests_cant": "tests reconstruct the result, not the operands", "anchors": ["src/sympc/protocol/spdz/spdz.py:div_wraps", "src/sympc/protocol/spdz/spdz.py:public_divide", "src/sympc/tensor/mpc_tensor.py:MPCTensor.truediv"]}
{"id": "C16", "title": "Replicated sharing: every party gets all shares but one, and reconstruction is lossless", "statement": "Distributing n shares gives party k the shares k, k+1, ..., k+n-2 (mod n); any two parties agree on the shares they have in common; reconstructing yields the sum of the shares. A wrong number of shares is refused.", "quantifier": "every n >= 2, every list of shares, every ring", "why_tests_cant": "unbounded party count and ring values", "anchors": ["src/sympc/tensor/replicatedshare_tensor.py:ReplicatedSharedTensor.distribute_shares", "src/sympc/tensor/replicatedshare_tensor.py:ReplicatedSharedTensor.distribute_shares_to_party", "src/sympc/tensor/replicatedshare_tensor.py:ReplicatedSharedTensor.reconstruct"]}
{"id": "C17", "title": "A single cheating party cannot alter a malicious-secure reconstruction", "statement": "If one party changes the shares it holds in any way, malicious-mode reconstruction either raises ValueError or returns the true value; with three parties any change at all is detected. Honest shares always reconstruct.", "quantifier": "every n >= 3, every cheating party, every modification, every secret and sharing", "why_tests_cant": "all tampering strategies over all ring values", "anchors": ["src/sympc/tensor/replicatedshare_tensor.py:ReplicatedSharedTensor.__reconstruct_malicious"]}
{"id": "C18", "title": "Replicated linear arithmetic", "statement": "Adding, subtracting (shared or public operands) and multiplying by a public value on replicated shares keeps the parties' copies consistent and reconstructs to the ring result; a public value minus a replicated tensor is public minus shared.", "quantifier": "every n >= 2, every ring (2^k, 2, 67), all operands", "why_tests_cant": "unbounded", "anchors": ["src/sympc/tensor/replicatedshare_tensor.py:ReplicatedSharedTensor.add", "src/sympc/tensor/replicatedshare_tensor.py:ReplicatedSharedTensor.sub", "src/sympc/tensor/replicatedshare_tensor.py:ReplicatedSharedTensor.rsub", "src/sympc/tensor/replicatedshare_tensor.py:ReplicatedSharedTensor.__apply_public_op"]}
{"id": "C19", "title": "Replicated multiplication is exact in the ring", "statement": "The three-party multiplication of replicated sharings yields shares that add to the product in the ring (2^k, bits, or the integers mod 67) whatever zero-sharing mask is added, and the re-shared result is consistent.", "quantifier": "all operands, all consistent sharings, all zero-sharing masks, every ring", "why_tests_cant": "unbounded randomness", "anchors": ["src/sympc/protocol/falcon/falcon.py:Falcon.multiplication_protocol", "src/sympc/protocol/falcon/falcon.py:Falcon.mul_semi_honest", "src/sympc/protocol/falcon/falcon.py:Falcon.compute_zvalue_and_add_mask"]}
{"id": "C20", "title": "Malicious multiplication accepts exactly the correct products", "statement": "With a valid triple, the verified multiplication succeeds for honest parties and raises ValueError whenever the produced sharing does not reconstruct to the product; in particular any additive error injected by a party is caught.", "quantifier": "all operands, all sharings, all triples, all additive errors", "why_tests_cant": "all attacks", "anchors": ["src/sympc/protocol/falcon/falcon.py:Falcon.mul_malicious", "src/sympc/protocol/falcon/falcon.py:Falcon.triple_verification"]}
{"id": "C21", "title": "Invalid multiplication triples are rejected when they are generated", "statement": "If the generated sharings of a, b, c are not a valid triple (c differs from a*b anywhere), generation raises ValueError.", "quantifier": "every triple of replicated sharings", "why_tests_cant": "needs partially wrong triples, which tests never build", "anchors": ["src/sympc/protocol/beaver/beaver.py:_get_triples"]}
{"id": "C22", "title": "Three-party rescaling is accurate to one unit unless the shares wrap", "statement": "The replicated truncation of z by p bits yields consistent shares of floor(z/2^p) or one less, whatever the random share, whenever the two locally truncated parts add to z without wrapping.", "quantifier": "every z, every sharing, every random share, every p", "why_tests_cant": "rare failing shares", "anchors": ["src/sympc/protocol/aby3/aby3.py:ABY3.truncation_algorithm1", "src/sympc/protocol/aby3/aby3.py:ABY3.truncate"]}
{"id": "C23", "title": "Arithmetic modulo 67 never overflows its machine type", "statement": "Sum, difference and product of two residues modulo 67 computed in the 8/16-bit tensor types are the residues of the integer sum, difference and product, and are again in 0..66; operands of another type are refused.", "quantifier": "all residues", "why_tests_cant": "exhaustive over types and signs; tests use random samples", "anchors": ["src/sympc/tensor/replicatedshare_tensor.py:ReplicatedSharedTensor.addmodprime", "src/sympc/tensor/replicatedshare_tensor.py:ReplicatedSharedTensor.submodprime", "src/sympc/tensor/replicatedshare_tensor.py:ReplicatedSharedTensor.mulmodprime"]}
{"id": "C24", "title": "Bit injection preserves the bit", "statement": "Converting a shared bit to an arithmetic sharing gives a consistent sharing of 0 or 1 equal to the bit.", "quantifier": "every bit, every binary sharing, all randomness, target rings 2^64 and 67", "why_tests_cant": "all sharings", "anchors": ["src/sympc/protocol/aby3/aby3.py:ABY3.bit_injection", "src/sympc/protocol/aby3/aby3.py:ABY3.local_decomposition"]}
{"id": "C25", "title": "Bit decomposition gives the binary digits of the secret", "statement": "Decomposing a shared 64-bit value gives 64 binary sharings that reconstruct to the two's complement digits of the value, also when the shares wrap.", "quantifier": "every value, every sharing, every bit width", "why_tests_cant": "2^192 sharings", "anchors": ["src/sympc/protocol/aby3/aby3.py:ABY3.bit_decomposition", "src/sympc/protocol/aby3/aby3.py:ABY3.full_adder", "src/sympc/protocol/aby3/aby3.py:ABY3.bit_decomposition_ttp"]}
{"id": "C26", "title": "Oblivious selection", "statement": "Selecting between two shared tensors with a shared bit gives a sharing of the first if the bit is 0 and of the second if it is 1.", "quantifier": "all tensors, bits, sharings, randomness", "why_tests_cant": "all randomness", "anchors": ["src/sympc/protocol/falcon/falcon.py:Falcon.select_shares"]}
{"id": "C27", "title": "Private comparison with a public value", "statement": "Comparing a bit-decomposed shared x with a public r returns 1 if x >= r and 0 otherwise, whatever the internal random bit and mask.", "quantifier": "every x, r of up to 64 bits, every random bit and non-zero mask", "why_tests_cant": "the result at equality depends on a random bit", "anchors": ["src/sympc/protocol/falcon/falcon.py:Falcon.private_compare", "src/sympc/protocol/falcon/falcon.py:Falcon._random_prime_group"]}
{"id": "C28", "title": "Shared comparisons and equality agree with the plain ones", "statement": "x <= y, x < y, x >= y, x > y, x == y, x != y on shared tensors reconstruct to 1 when the relation holds between the secrets and to 0 otherwise.", "quantifier": "all operands, all sharings, all masks, every correct function-secret-sharing backend", "why_tests_cant": "the back end works on 32-bit values; only operands further apart than the tests' show it", "anchors": ["src/sympc/protocol/fss/fss.py:fss_op", "src/sympc/protocol/fss/fss.py:mask_builder", "src/sympc/protocol/fss/fss.py:evaluate", "src/sympc/tensor/mpc_tensor.py:MPCTensor.lt", "src/sympc/tensor/mpc_tensor.py:MPCTensor.gt", "src/sympc/tensor/mpc_tensor.py:MPCTensor.ne"]}
{"id": "C29", "title": "Each precomputed triple is used once and in order", "statement": "Over any history of adding and requesting triples, the triples handed out (with removal) for an operation and shape pair are exactly the added ones in order, each once; a request on an exhausted queue raises EmptyPrimitiveStore; a peek returns what the next removal returns; other shapes and operations are not affected.", "quantifier": "every history of store operations", "why_tests_cant": "histories are unbounded; reuse of a triple leaks secrets silently", "anchors": ["src/sympc/protocol/beaver/beaver.py:mul_store_add", "src/sympc/protocol/beaver/beaver.py:mul_store_get", "src/sympc/store/crypto_store.py:CryptoStore"]}
{"id": "C30", "title": "A multiplication consumes a triple made for it", "statement": "The triple used in a multiplication, matrix product or convolution was generated for the same operation, operand shapes and parameters (stride, padding, dilation, groups).", "quantifier": "every history of generated and consumed triples", "why_tests_cant": "needs prefilled stores with mixed parameters", "anchors": ["src/sympc/protocol/beaver/beaver.py:conv2d_store_add", "src/sympc/protocol/beaver/beaver.py:conv2d_store_get"]}
{"id": "C31", "title": "Comparison keys are always available after on-demand generation", "statement": "A comparison on a tensor succeeds whatever primitives were stored before, because it generates the keys it needs; mask and evaluation of one comparison use the same keys; a key is never used by two comparisons.", "quantifier": "every history of key generations and comparisons", "why_tests_cant": "depends on what earlier, differently sized calls left in the store", "anchors": ["src/sympc/protocol/fss/fss.py:_add_primitive", "src/sympc/protocol/fss/fss.py:_get_primitive", "src/sympc/protocol/fss/fss.py:fss_op"]}
{"id": "C32", "title": "Primitive generation hands party k the k-th component", "statement": "Generated primitives arrive at each party as (a_k, b_k, c_k) in order; a count different from the number of parties, an unregistered operation or a double registration is refused with ValueError and leaves the registries unchanged.", "quantifier": "every number of parties, instances and every history of registrations", "why_tests_cant": "nested transpositions over unbounded lists", "anchors": ["src/sympc/store/crypto_primitive_provider.py:CryptoPrimitiveProvider.generate_primitives", "src/sympc/store/crypto_primitive_provider.py:CryptoPrimitiveProvider._transfer_primitives_to_parties", "src/sympc/store/__init__.py:register_primitive_generator"]}
{"id": "C33", "title": "Recorded primitive needs can be replayed", "statement": "Recording the primitives requested by a computation and generating from the record lets the same computation run again with every request served, leaving exactly what was left before.", "quantifier": "every sequence of operations", "why_tests_cant": "unbounded sequences", "anchors": ["src/sympc/store/crypto_primitive_provider.py:CryptoPrimitiveProvider.start_logging", "src/sympc/store/crypto_primitive_provider.py:CryptoPrimitiveProvider.stop_logging", "src/sympc/store/crypto_primitive_provider.py:CryptoPrimitiveProvider.generate_primitive_from_dict"]}
{"id": "C34", "title": "Parallel execution is deterministic", "statement": "Running a function at all parties in parallel returns the results in party order and leaves every party in the same state whatever the order in which the workers run; if some parties fail, the exception of the first failing party in order is raised.", "quantifier": "every interleaving, every function, every number of parties", "why_tests_cant": "schedules", "anchors": ["src/sympc/utils/utils.py:parallel_execution"]}
{"id": "C35", "title": "Session parameters", "statement": "A session exists only for a registered protocol and a supported ring size; its value bounds are those of the ring's signed integers; malicious security with one or two parties is refused.", "quantifier": "every ring size, protocol value and party count", "why_tests_cant": "all integers", "anchors": ["src/sympc/session/session.py:Session.__init__", "src/sympc/utils/mpc_utils.py:get_type_from_ring"]}
{"id": "C36", "title": "Session set-up", "statement": "Setting up a session gives each party its rank in the list of parties, distinct identifiers, and neighbouring parties one common generator seed; operations between tensors of different sessions are refused.", "quantifier": "every party list, every identifier supply", "why_tests_cant": "unbounded parties", "anchors": ["src/sympc/session/session_manager.py:SessionManager.setup_mpc", "src/sympc/session/session_manager.py:SessionManager._setup_przs", "src/sympc/tensor/mpc_tensor.py:MPCTensor.__apply_private_op"]}
{"id": "C37", "title": "Sharing through .share() does not depend on earlier calls", "statement": "tensor.share(parties=...) with the same arguments behaves the same whether or not these parties shared something before; calls for the same parties use one session.", "quantifier": "every history of share calls", "why_tests_cant": "history dependence", "anchors": ["src/sympc/tensor/mpc_tensor.py:share"]}
{"id": "C38", "title": "Powers", "statement": "x ** n for a shared x and n >= 1 equals the n-fold product (exactly in the ring when no rescaling happens); negative exponents are refused.", "quantifier": "every x, every n", "why_tests_cant": "unbounded exponent", "anchors": ["src/sympc/tensor/mpc_tensor.py:MPCTensor.pow"]}
{"id": "C39", "title": "Sorting", "statement": "sort returns the shared values in ascending (or descending) order, a permutation of the inputs, and does not change the caller's list.", "quantifier": "every list, including repeated values", "why_tests_cant": "every input order and length", "anchors": ["src/sympc/algorithms/algorithms.py:sort"]}
{"id": "C40", "title": "Maximum and argmax", "statement": "max returns the largest value and argmax the position of a largest value (or raises) for any tensor.", "quantifier": "every tensor, ties and several dimensions included", "why_tests_cant": "ties and multi-dimensional inputs", "anchors": ["src/sympc/tensor/static.py:helper_argmax", "src/sympc/tensor/static.py:argmax", "src/sympc/tensor/static.py:max_mpc", "src/sympc/tensor/static.py:helper_argmax_pairwise"]}
{"id": "C41", "title": "stack and cat", "statement": "stack and cat of shared tensors along dimension dim reconstruct to torch.stack / torch.cat of the plain tensors along dim.", "quantifier": "every dim, every list of tensors, every n", "why_tests_cant": "only dim=0 is tested", "anchors": ["src/sympc/tensor/static.py:stack", "src/sympc/tensor/static.py:cat", "src/sympc/tensor/static.py:stack_share_tensor", "src/sympc/tensor/static.py:cat_share_tensor"]}
{"id": "C42", "title": "Sign, absolute value, relu and hardtanh", "statement": "sign, modulus, relu and hardtanh built from shared comparisons equal the mathematical functions on every value.", "quantifier": "every value and every min < max", "why_tests_cant": "every value", "anchors": ["src/sympc/approximations/utils.py:sign", "src/sympc/approximations/utils.py:modulus", "src/sympc/module/nn/functional.py:relu", "src/sympc/approximations/tanh.py:hardtanh"]}
{"id": "C43", "title": "Iterative approximations converge as documented", "statement": "Each Newton-Raphson step of reciprocal squares the relative error; the polynomial used by tanh evaluates the odd Chebyshev polynomials; exp computes (1+x/2^k)^(2^k), never above e^x for x >= -2^k; sigmoid(-x) = 1 - sigmoid(x).", "quantifier": "every input and iteration count (real-number semantics)", "why_tests_cant": "every input", "anchors": ["src/sympc/approximations/reciprocal.py:reciprocal", "src/sympc/approximations/tanh.py:_chebyshev_polynomials", "src/sympc/approximations/exponential.py:exp", "src/sympc/approximations/sigmoid.py:sigmoid"]}
{"id": "C44", "title": "Back-propagation computes the chain rule", "statement": "backward() on a result adds to each leaf's gradient the sum over all paths of the products of the local derivatives.", "quantifier": "every computation graph, including shared sub-expressions, repeated operands and branches that do not lead to the result", "why_tests_cant": "unbounded graphs", "anchors": ["src/sympc/tensor/mpc_tensor.py:MPCTensor.backward", "src/sympc/grads/grad_functions.py:forward"]}
{"id": "C45", "title": "Gradients of broadcast operands", "statement": "The gradient of a broadcast operand is summed back to the operand's shape: it has that shape and satisfies <broadcast(y), g> = <y, reduce(g)> for every y and g.", "quantifier": "every pair of broadcastable shapes", "why_tests_cant": "unbounded shapes", "anchors": ["src/sympc/grads/grad_functions.py:_reverse_broadcast"]}
{"id": "C46", "title": "Max pooling", "statement": "max_pool2d returns the maximum of every window, padding never being selected over a real entry; invalid kernel, stride or padding is refused.", "quantifier": "every input, kernel, stride, padding", "why_tests_cant": "every size and negative inputs with padding", "anchors": ["src/sympc/module/nn/functional.py:max_pool2d", "src/sympc/module/nn/functional.py:helper_max_pool2d_reshape"]}
{"id": "C47", "title": "Max pooling gradient", "statement": "The gradient of max_pool2d has the shape of the input and routes each window's gradient to the selected entry, adding contributions of overlapping windows.", "quantifier": "every input size, kernel, stride, padding", "why_tests_cant": "every size", "anchors": ["src/sympc/module/nn/functional.py:max_pool2d_backward", "src/sympc/module/nn/functional.py:max_pool2d_backward_helper"]}
{"id": "C48", "title": "Optimiser step", "statement": "One SGD step replaces every parameter by parameter - lr*gradient, keeps the parameter objects, and zero_grad clears every gradient.", "quantifier": "every list of parameters", "why_tests_cant": "every list and value", "anchors": ["src/sympc/optim/sgd.py:SGD.step", "src/sympc/optim/sgd.py:SGD.zero_grad"]}
{"id": "C49", "title": "Whole computations", "statement": "For integer (precision 0) sessions, any composition of shared inputs, public constants, additions, subtractions, products, matrix products, powers and shape methods evaluated by the protocols reconstructs to the same computation in the ring.", "quantifier": "every expression, every sharing and randomness, every n (additive), 3 parties (replicated)", "why_tests_cant": "unbounded programs", "anchors": ["src/sympc/tensor/mpc_tensor.py:MPCTensor.__apply_op", "src/sympc/protocol/spdz/spdz.py:mul_master", "src/sympc/protocol/falcon/falcon.py:Falcon.mul_master"]}
{"id": "C50", "title": "Every supported ring size works for addition", "statement": "In a session with any supported ring size, the sum of two shared tensors reconstructs to the sum in that ring.", "quantifier": "every supported ring size, every pair of secrets, all randomness", "why_tests_cant": "tests share tensors only in the default ring", "anchors": ["src/sympc/tensor/mpc_tensor.py:MPCTensor.generate_shares", "src/sympc/session/session.py:Session.copy"]}
{"id": "C51", "title": "Bit decomposition helper", "statement": "decompose(t, ring) returns the binary digits of every value of the ring.", "quantifier": "every ring value", "why_tests_cant": "needs values beyond 24 bits or negative ones", "anchors": ["src/sympc/utils/mpc_utils.py:decompose", "src/sympc/utils/mpc_utils.py:get_nr_bits"]}
{"id": "C52", "title": "Convolution and matmul shapes", "statement": "The shape attribute of a product or convolution result is the shape of the reconstructed tensor for every stride, padding, dilation and groups accepted by torch.", "quantifier": "every shape and parameter", "why_tests_cant": "every combination", "anchors": ["src/sympc/tensor/mpc_tensor.py:MPCTensor._get_shape", "src/sympc/tensor/mpc_tensor.py:MPCTensor.__apply_private_op"]}
{"id": "C53", "title": "Protocol registry", "statement": "A protocol class is registered under its name exactly once and only with a share class and security levels; a failed registration leaves the registry unchanged.", "quantifier": "every history of class definitions", "why_tests_cant": "histories", "anchors": ["src/sympc/protocol/protocol.py:Protocol"]}
{"id": "C54", "title": "Equality of shares is an equivalence", "statement": "Equality of share tensors is reflexive, symmetric and transitive.", "quantifier": "all triples of shares", "why_tests_cant": "all triples", "anchors": ["src/sympc/tensor/share_tensor.py:ShareTensor.__eq__", "src/sympc/session/session.py:Session.__eq__"]}
{"id": "C55", "title": "Bias of convolutions", "statement": "conv2d and conv_transpose2d with a bias give, at every element, the convolution plus the bias of the output channel of that element, for a shared bias and for a public one.", "quantifier": "every shape, every bias, all randomness", "why_tests_cant": "tests use one channel or no bias; the failure depends on the number of channels", "anchors": ["src/sympc/tensor/mpc_tensor.py:MPCTensor.conv2d", "src/sympc/tensor/mpc_tensor.py:MPCTensor.conv_transpose2d"]}
{"id": "C56", "title": "Sharing a module and taking it back", "statement": "Sharing the layers of a module (Linear, Conv2d, Flatten) and reconstructing them gives a module with the same names, classes and attributes, and every parameter rounded toward zero to a multiple of the fixed-point unit.", "quantifier": "every list of layers, all parameters within range, local or at a party, all randomness", "why_tests_cant": "tests use a module of one architecture with biases, one group and default strides", "anchors": ["src/sympc/module/__init__.py:share", "src/sympc/module/__init__.py:reconstruct", "src/sympc/module/nn/linear.py:Linear.share_state_dict", "src/sympc/module/nn/conv.py:Conv2d.share_state_dict", "src/sympc/module/nn/conv.py:Conv2d.get_torch_module"]}
{"id": "C57", "title": "Forward pass of the shared layers", "statement": "Applying a shared Linear or Conv2d layer to a shared input gives a sharing of the layer's affine function of the input (weighted sums or convolution, plus the bias if there is one), exact in integer sessions and up to the rescaling error otherwise.", "quantifier": "every shape, all parameters, inputs and randomness, any number of parties", "why_tests_cant": "every shape and every way of sharing", "anchors": ["src/sympc/module/nn/linear.py:Linear.forward", "src/sympc/module/nn/conv.py:Conv2d.forward"]}
{"id": "C58", "title": "Comparing layers", "statement": "eq_close of two layers returns true exactly if their weights are close and either both have no bias or both have biases that are close.", "quantifier": "every pair of layers", "why_tests_cant": "the layers of the tests have biases", "anchors": ["src/sympc/module/nn/smpc_module.py:SMPCModule.eq_close"]}
{"id": "C59", "title": "Mean squared error", "statement": "mse_loss returns a sharing of the sum of the squared differences of prediction and target for the reduction sum, and of that sum divided by the number of elements for the reduction mean; it refuses any other reduction.", "quantifier": "every shape, all values and randomness, any number of parties", "why_tests_cant": "the tests use one-dimensional tensors; the failure depends on the number of dimensions", "anchors": ["src/sympc/module/nn/functional.py:mse_loss"]}
{"id": "C60", "title": "Softmax", "statement": "In real-number semantics softmax of a line gives numbers between 0 and 1 in the order of the entries, with sum 1 up to 10^-12, and each close to exp(x_i) divided by the sum of all exp(x_j); a line of one entry gives exactly 1.", "quantifier": "all lines of real numbers", "why_tests_cant": "tests compare a few random tensors with torch within a tolerance; the failures depend on the spread of the entries and on ties", "anchors": ["src/sympc/approximations/softmax.py:softmax", "src/sympc/approximations/reciprocal.py:reciprocal", "src/sympc/tensor/static.py:max_mpc"]}
{"id": "C61", "title": "Logarithm and log-softmax", "statement": "In real-number semantics each round of log moves the result to the natural logarithm up to the bias of the approximate exponential and a term of order seven; with the default rounds log is within 1/8 of the natural logarithm from 1/100 to 150, the reciprocal with the method log has a relative error of at most 3/20 for absolute values from 1/100 to 150, and log_softmax keeps the differences of the entries and is close to the logarithm of softmax.", "quantifier": "all real numbers of the range, all lines", "why_tests_cant": "a range of real numbers cannot be sampled completely", "anchors": ["src/sympc/approximations/log.py:log", "src/sympc/approximations/softmax.py:log_softmax"]}
{"id": "C62", "title": "Gradient of the convolution", "statement": "Back-propagation through conv2d passes on the gradient with respect to the input and the gradient with respect to the weight: for every change of the input (of the weight) the scalar product of the gradient of the result with the change of the result equals the scalar product of the passed gradient with the change, in the ring, exact in integer sessions and up to the rescaling error otherwise.", "quantifier": "every shape, stride, padding, dilation and number of groups for which the convolution itself works, all values and randomness, any number of parties", "why_tests_cant": "the tests use one image with one channel and one kernel without padding", "anchors": ["src/sympc/grads/grad_functions.py:GradConv2d.backward", "src/sympc/grads/grad_functions.py:GradConv2d.forward"]}
{"id": "C63", "title": "The encoder in single precision", "statement": "With float32 rounding (every operation to nearest even, 24 significant bits, exponent range ignored) a base-2 encoder truncates the scaled value of every float32 input toward zero with no error of its own; with precision at most 24 decoding returns every integer t within relative error 2^-22 of t/scale, and exactly - so that re-encoding gives t back - when |t| < 2^24 - 1. Outside these limits it fails: re-encoding loses 2^24+1, precision 25 decodes -1 to 0, base 10 can encode a number to more than its scaled value.", "quantifier": "every precision, every float32 input whose scaled value fits int64, every integer t", "why_tests_cant": "rounding errors depend on bit patterns; tests compare with a tolerance", "anchors": ["src/sympc/encoder/fp_encoder.py:47-92"]}
{"id": "C64", "title": "Sigmoid, tanh and the gradient of sigmoid", "statement": "In real-number semantics the default method of sigmoid is within 1/400 of the logistic function for |x| <= 500, the default method of tanh within 1/200 of tanh for |x| <= 250, and the backward pass of the sigmoid node multiplies the incoming gradient by the derivative of the logistic function up to 1/400. The method maclaurin is within 1/8 of the logistic function for |x| <= 6, the method chebyshev-aliter within 1/7 for |x| <= 8. Beyond that it fails: sigmoid(512) is at most 1/2, the method maclaurin exceeds 1 at 8, and the method chebyshev-aliter exceeds 17 at 16.", "quantifier": "every real x in the range, every incoming gradient", "why_tests_cant": "tests compare a few small inputs with a tolerance; the failure for large arguments is never reached", "anchors": ["src/sympc/approximations/sigmoid.py:sigmoid", "src/sympc/approximations/tanh.py:tanh", "src/sympc/grads/grad_functions.py:203-234", "src/sympc/module/nn/functional.py:20-35"]}
{"id": "C65", "title": "Division by a secret and its gradient", "statement": "In real-number semantics, with at most two parties and 1/50 <= |y| <= 500, x / y and c / y have a relative error of at most 10^-12, and the backward pass of the division node returns the incoming gradient times 1/y and -x/y^2 up to 2*10^-12; with more parties ValueError is raised. Dividing by 0 gives 0 without an error, and outside the range it fails: 1/0.0001 is short by a third, 1/600 is negative.", "quantifier": "every real x, y, incoming gradient; every number of parties", "why_tests_cant": "tests divide a handful of numbers; the range of convergence is not documented anywhere", "anchors": ["src/sympc/tensor/mpc_tensor.py:579-620", "src/sympc/approximations/reciprocal.py:reciprocal", "src/sympc/grads/grad_functions.py:361-400"]}
{"id": "C66", "title": "Forwarded methods of replicated tensors", "statement": "t, T, unsqueeze, view, sum, clone, repeat, squeeze, flatten, reshape, narrow, transpose and numel of a replicated tensor give a replicated tensor holding what the torch method gives on the shared value (numel: its number of elements).", "quantifier": "every ring size, shape, value, sharing, number of parties and argument for which the torch method works", "why_tests_cant": "tests call three of the methods on one tensor in the default ring", "anchors": ["src/sympc/tensor/replicatedshare_tensor.py:970-1050", "src/sympc/tensor/mpc_tensor.py:976-1067"]}
{"id": "C67", "title": "Division and shift of replicated tensors", "statement": "Dividing a replicated tensor by a public non-zero integer, or shifting it right by fewer bits than the ring has, gives a sharing of the quotient of the shared value up to one unit per party; shifts out of range are refused.", "quantifier": "every sharing, value, divisor and shift, in the rings 2^8 to 2^64, any number of parties", "why_tests_cant": "whether the shares wrap around is random: a test would have to draw them", "anchors": ["src/sympc/tensor/replicatedshare_tensor.py:535-584", "src/sympc/tensor/mpc_tensor.py:591-619"]}
{"id": "C68", "title": "Equality of replicated share objects", "statement": "== of two replicated share objects is true exactly if they have equal shares, configurations and ring sizes and, where both are known, the same session; it is reflexive and transitive; reading and replacing a share by index affects that share only.", "quantifier": "all objects with any number of shares of any shape", "why_tests_cant": "tests compare equal objects of one shape", "anchors": ["src/sympc/tensor/replicatedshare_tensor.py:669-724"]}
{"id": "C69", "title": "Sign, absolute value, relu and hardtanh of fixed-point secrets", "statement": "In a session of two parties with any base and precision (scale at most 2^31), sign, modulus, relu and hardtanh of secrets closer to 0 than 2^31-1 units in the last place never raise; unless the two shares of some rescaled product wrap around, the results are within 1, 2+|x|, 1 and 2 units of the exact function. Two shares of a value of a units wrap for at most |a|+1 of the 2^64 possible first shares; when they do, the result is wrong by about 2^32 (default encoder).", "quantifier": "every backend, sharing, supply of valid triples, configuration, non-empty shape with dimensions, value", "why_tests_cant": "whether shares wrap is random and rare, the rounding depends on all shares; tests compare with a tolerance", "anchors": ["src/sympc/approximations/utils.py:sign", "src/sympc/approximations/utils.py:modulus", "src/sympc/module/nn/functional.py:relu", "src/sympc/approximations/tanh.py:hardtanh", "src/sympc/protocol/spdz/spdz.py:mul_parties"]}
{"id": "C70", "title": "exp, reciprocal, sigmoid, tanh and quotients with the default encoder", "statement": "In a session of two parties with the default encoder (base 2, precision 16) these algorithms never raise, and unless the two shares of some rescaled or divided tensor wrap around: exp is within 19/1000 of exp(x) for -500 <= x <= 0 and has a relative error of at most x^2/256 + 1031 units for 0 <= x <= 20; for 1/2 <= |x| <= 50 the reciprocal is within 1/400 of 1/x (28 units for |x| <= 3.9) and quotients with that divisor within the same error times the numerator plus 2 units; sigmoid is within 1/50 of the logistic function for |x| <= 499 and tanh within 1/24 of tanh for |x| <= 249. Outside it fails without shares wrapping: exp(23) is negative, 1/400 is about -111, sigmoid(520) about -10^9.", "quantifier": "every backend, sharing, supply of valid triples, non-empty shape with dimensions, value in the range", "why_tests_cant": "tests try a few inputs with a tolerance; accumulated rounding over dozens of products, for all shares, cannot be sampled", "anchors": ["src/sympc/approximations/exponential.py:exp", "src/sympc/approximations/reciprocal.py:reciprocal", "src/sympc/approximations/sigmoid.py:sigmoid", "src/sympc/approximations/tanh.py:tanh", "src/sympc/tensor/mpc_tensor.py:579-620"]}
{"id": "C71", "title": "The Chebyshev series of tanh", "statement": "In real-number semantics the Chebyshev series with the coefficients of chebyshev_series agrees with the function at all its nodes, for every function, width other than 0 and number of terms; the coefficients of even index, which tanh drops, vanish for odd functions; with public coefficients within d of the exact ones the method chebyshev of tanh is within 5d of tanh at the 10 nodes.", "quantifier": "every real function, width, number of terms, node; every error of the coefficients", "why_tests_cant": "the tests evaluate the series of tanh at a few points with a tolerance", "anchors": ["src/sympc/approximations/tanh.py:chebyshev_series", "src/sympc/approximations/tanh.py:_chebyshev_polynomials", "src/sympc/approximations/tanh.py:tanh"]}
{"id": "C72", "title": "Share objects without a session", "statement": "Sums and differences of share objects that belong to no session, and with public values on either side, are objects of the same ring and configuration whose elements are the exact sums in the ring; products and matrix products are divided by the scale once, so the number represented is within one unit of the exact one where nothing overflows; > and < compare the numbers represented; xor acts on the bits, division by an integer truncates toward zero, the forwarded methods move or sum the elements, decode divides by the scale; methods and division keep the ring; objects of different configurations or sessions are never combined.", "quantifier": "every ring of 8 to 64 bits, base, precision, broadcastable shapes, all values", "why_tests_cant": "tests use the default ring and configuration and a few numbers", "anchors": ["src/sympc/tensor/share_tensor.py:102-363", "src/sympc/tensor/share_tensor.py:417-490"]}
{"id": "C73", "title": "Copies of sessions, equality of protocols", "statement": "A copy of a session keeps the number of parties, the configuration, the protocol and the ring size, copying twice is copying once, and the copy is consistent: its tensor type and bounds are those of its ring. Two protocol objects are equal exactly if class and security type agree; a comparison with any object gives true or false.", "quantifier": "all sessions, rings, configurations, protocols", "why_tests_cant": "tests copy a session of the default ring only", "anchors": ["src/sympc/session/session.py:98-186", "src/sympc/session/session.py:333-345", "src/sympc/session/session_manager.py:36-60", "src/sympc/protocol/falcon/falcon.py:68-83", "src/sympc/protocol/aby3/aby3.py:53-68", "src/sympc/protocol/fss/fss.py:243-258"]}
{"id": "C74", "title": "Attributes of tensors and the recording of gradients", "statement": "A tensor class is made exactly if no forwarded name is defined twice, and then the forwarded names are the hooks, whatever the order in which python runs through the names; with autograd active every arithmetic operator is recorded with the gradient function of what it computes, with autograd inactive nothing is recorded and the same attributes exist; forwarded methods return what torch returns.", "quantifier": "all classes, sets of names and their orders, all attribute names, both states of autograd", "why_tests_cant": "set order varies between runs of python; tests look up a few names", "anchors": ["src/sympc/tensor/tensor.py:16-50", "src/sympc/tensor/mpc_tensor.py:46-71", "src/sympc/tensor/mpc_tensor.py:897-926", "src/sympc/tensor/mpc_tensor.py:1021-1067", "src/sympc/tensor/mpc_tensor.py:1168-1186"]}
{"id": "C75", "title": "What a comparison reveals", "statement": "Comparing two secrets reveals nothing about them beyond the shared result: for any two pairs of secrets and either party there is a one-to-one correspondence of everything drawn at random (the splittings, the mask shares) under which the party holds the same shares and mask shares and receives the same masked differences; the result is computed from the keys and these masked differences alone; and the value the orchestrator opens is as uninformative.", "quantifier": "all pairs of secrets, all broadcastable shapes, all splittings and masks", "why_tests_cant": "a test sees one masked value; that it fits every other pair of secrets equally well is a statement about all masks at once", "anchors": ["src/sympc/protocol/fss/fss.py:45-75", "src/sympc/protocol/fss/fss.py:158-172"]}
{"id": "C76", "title": "What a division reveals", "statement": "Dividing a secret by a public number (three or more parties) reveals nothing about it: for any two secrets and any party there is a one-to-one correspondence of everything drawn at random under which the other parties hold the same shares of the secret, of the mask and of its number of wraps, and receive the same shares of the masked secret; the result is computed from the divided shares and the opened number of wraps, which does not depend on the secret.", "quantifier": "all secrets, all numbers of parties, all divisors, all splittings and masks", "why_tests_cant": "a test sees one set of masked shares; the claim quantifies over all secrets and all masks", "anchors": ["src/sympc/protocol/spdz/spdz.py:181-228", "src/sympc/protocol/spdz/spdz.py:234-276", "src/sympc/protocol/beaver/beaver.py:504-548"]}
{"id": "C77", "title": "What replicated sharings and products reveal", "statement": "A party of a replicated session learns nothing from its shares of a secret (any number of parties, one share missing), and nothing from a multiplication of two replicated secrets among three parties: for any two pairs of secrets and any party there is a one-to-one correspondence of everything drawn at random under which the party holds the same shares of the operands, the same numbers of its two generators and the same shares of the product; and what the orchestrator fetches to distribute the product again is as uninformative.", "quantifier": "all pairs of secrets, all shapes of products and matrix products, each party, all splittings and generator outputs", "why_tests_cant": "a test sees one set of shares; the claim quantifies over all secrets and all random numbers", "anchors": ["src/sympc/tensor/replicatedshare_tensor.py:880-968", "src/sympc/protocol/falcon/falcon.py:134-182", "src/sympc/protocol/falcon/falcon.py:349-407", "src/sympc/session/session.py:219-260"]}
{"id": "C78", "title": "What shares reveal with the random numbers the code draws", "statement": "The random tensors of the code come from random_ without bounds, which draws from 0 to 2^63-1 only. With such draws all but one share of a secret, and what all but one party see of a multiplication, still have the same distribution whatever the secrets: for any secrets and any possible view there are draws for any other secrets giving the same view.", "quantifier": "all secrets, all numbers of parties, all left out parties, all draws of the code", "why_tests_cant": "a statement about all draws; a test sees a few shares that look random", "anchors": ["src/sympc/tensor/mpc_tensor.py:338-357", "src/sympc/protocol/beaver/beaver.py:79-103", "src/sympc/utils/mpc_utils.py:84-110"]}
{"id": "C79", "title": "Softmax in fixed point", "statement": "Softmax of a line of secret tensors of a two-party session with the default encoder never raises; at every position the results are not (noticeably) negative, add up to 1 up to n/380 for n entries, and each is within 1/25 + 3n/1000 of the true softmax, unless shares carry on the way; for one entry the result is exactly 1.", "quantifier": "all lines of 1 to 48 tensors of a non-empty shape with values from -249 to 249, all sharings, triples and comparison keys", "why_tests_cant": "rounding errors accumulate over 3 approximations in a row; tests compare a few random tensors with a tolerance", "anchors": ["src/sympc/approximations/softmax.py:12-36", "src/sympc/approximations/exponential.py:4-20", "src/sympc/approximations/reciprocal.py:9-42", "src/sympc/tensor/static.py:252-286"]}
{"id": "C80", "title": "Logarithm and log_softmax in fixed point", "statement": "With two parties and the default encoder log never raises and is within 7/100 of the natural logarithm from 1 to 20, the reciprocal with the method log has a relative error of at most 11/100 for absolute values from 1 to 19, and log_softmax of n tensors keeps the differences of the entries exactly and is within 9/100 + n/300 of the logarithm of softmax, unless shares carry on the way.", "quantifier": "all secrets in these ranges, all shapes, all sharings, triples and comparison keys; lines of 2 to 19 tensors with values from -249 to 249", "why_tests_cant": "rounding errors accumulate over three exponentials, two polynomials of degree 6 and truncated products; tests compare a few tensors with a tolerance", "anchors": ["src/sympc/approximations/log.py:6-37", "src/sympc/approximations/reciprocal.py:9-42", "src/sympc/approximations/softmax.py:39-67"]}
{"id": "C81", "title": "Comparisons and approximations with replicated shares", "statement": "In a session with a replicated protocol (Falcon, ABY3) the orchestrator can share a secret, which reconstructs to itself. Such a session has no comparisons: every relational operator, sign, modulus, relu, hardtanh, exp, log, reciprocal, private division, sigmoid (all methods but Maclaurin), tanh, max, softmax, log_softmax and sort of more than one entry raise an exception for all inputs; none of them ever returns a wrong value. The Maclaurin sigmoid does return.", "quantifier": "all numbers of parties, tensors, shapes, values and randomness, both protocols and security types", "why_tests_cant": "that a call never returns is a statement about all inputs; the tests of these functions use two-party FSS sessions only and none creates an ABY3 session", "anchors": ["src/sympc/tensor/mpc_tensor.py:193-196", "src/sympc/tensor/mpc_tensor.py:1069-1155", "src/sympc/protocol/aby3/aby3.py:32-68", "src/sympc/protocol/falcon/falcon.py:34-66", "src/sympc/approximations/utils.py:4-26"]}
{"id": "C82", "title": "Ring sizes with replicated shares", "statement": "In a Falcon session of any ring size supported by the library, a secret shared by the orchestrator reconstructs exactly and so does the sum of two shared secrets, in both security modes; a malicious session does not accuse honest parties.", "quantifier": "all ring sizes, secrets, numbers of parties, draws and security types", "why_tests_cant": "the shares have different torch types and wrap differently; whether they wrap depends on the draws, so tests fail or pass by chance, and the tests use the ring 2^64 for sessions that share secrets", "anchors": ["src/sympc/tensor/mpc_tensor.py:325-357", "src/sympc/tensor/replicatedshare_tensor.py:726-838", "src/sympc/tensor/replicatedshare_tensor.py:167-186", "src/sympc/session/session.py:171-176"]}
{"id": "C83", "title": "Layers, loss and optimiser with replicated shares", "statement": "In a Falcon session of three parties the Linear and Conv2d layers compute the weighted sums plus the bias, mse_loss the sum or mean of the squared differences, and a step of SGD moves every parameter by the learning rate times its gradient, exactly without scaling and up to the rounding of the truncations otherwise.", "quantifier": "all rings 2^8 to 2^64 (loss: 2^64), shapes, values, sharings, randomness and both security types", "why_tests_cant": "the tests of modules, losses and optimisers use additive sessions; a truncation error depends on the random shares", "anchors": ["src/sympc/module/nn/linear.py:47-61", "src/sympc/module/nn/conv.py:64-82", "src/sympc/module/nn/functional.py:54-74", "src/sympc/optim/sgd.py:24-35", "src/sympc/tensor/mpc_tensor.py:684-696"]}
{"id": "C84", "title": "What truncation and malicious verification reveal", "statement": "A multiplication of replicated secrets in fixed point, with its truncation and, in a malicious session, its verification, reveals nothing about the operands to a single one of three parties: for any two pairs of operands there is a one-to-one correspondence of everything drawn at random (splittings, generators of the zero shares, random shares of the triple, the tensor drawn by the truncation) under which the party holds the same shares of the operands, product, triple and truncated product and receives the same opened differences; and what the orchestrator fetches is as uninformative.", "quantifier": "all pairs of operands, shapes, products and matrix products, encoders, parties and draws over the whole ring, both security types", "why_tests_cant": "that a view is equally likely for all secrets cannot be observed by running the protocol", "anchors": ["src/sympc/protocol/falcon/falcon.py:134-182", "src/sympc/protocol/falcon/falcon.py:246-346", "src/sympc/protocol/beaver/beaver.py:104-140", "src/sympc/protocol/aby3/aby3.py:71-163"]}
{"id": "C85", "title": "Encoders whose base or precision is assigned", "statement": "After any assignments to its base and precision an encoder is the one a constructor called with the last values would give: encoding and decoding use the scale base^precision of these values. A number encoded earlier is read in the new unit. A scale that does not fit 64 bits, or decoding with scale 0, raises.", "quantifier": "all sequences of assignments, all bases, precisions and numbers", "why_tests_cant": "the object stores the scale it computed; a stale one shows only for particular orders of assignment", "anchors": ["src/sympc/encoder/fp_encoder.py:36-45", "src/sympc/encoder/fp_encoder.py:47-92", "src/sympc/encoder/fp_encoder.py:103-122"]}
{"id": "C86", "title": "The sessions known to a process", "statement": "After any sequence of registrations a process finds under an identifier exactly the session registered last under it, and none if none was.", "quantifier": "all sequences of registrations and identifiers", "why_tests_cant": "tests register one session", "anchors": ["src/sympc/session/session_utils.py:12-31"]}
{"id": "C87", "title": "Whole fixed-point computations", "statement": "A program of sums, differences, products, matrix products, convolutions, powers, public operands, divisions by public integers and shape methods, in any nesting, run on shares of fixed-point numbers yields what the same program yields on real numbers, up to an error bound that follows from the program alone: errors of a sum add up, a product adds |x| dy + |y| dx + dx dy and less than one unit per party for its rescaling, a division by k divides the error by k and adds less than one unit per party; provided no number leaves the range.", "quantifier": "all programs, shapes, values, sharings, triples, masks, bases and precisions, numbers of parties", "why_tests_cant": "tests run single operators on a handful of values and compare with a tolerance; how errors grow through nested operators, and for which sharings the tolerance is exceeded, needs all inputs", "anchors": ["src/sympc/tensor/mpc_tensor.py:380-652", "src/sympc/tensor/mpc_tensor.py:654-862", "src/sympc/protocol/spdz/spdz.py:34-179", "src/sympc/protocol/spdz/spdz.py:181-228", "src/sympc/encoder/fp_encoder.py:47-92", "src/sympc/tensor/share_tensor.py:230-400"]}
{"id": "C88", "title": "The shape attribute of a shared tensor", "statement": "A tensor created with or without the parameter shape, given as a torch.Size, a tuple or a list as documented, can be used in every operator and method; the shape attribute of every tensor is the shape of the value it reconstructs to, and len is its first dimension.", "quantifier": "all secrets, shapes, ways of giving the shape, numbers of parties, operators and methods", "why_tests_cant": "tests create tensors with torch.Size or without the parameter; a shape given as a list or a wrong one fails only in later operators", "anchors": ["src/sympc/tensor/mpc_tensor.py:131-211", "src/sympc/tensor/mpc_tensor.py:757-781", "src/sympc/tensor/mpc_tensor.py:827-870", "src/sympc/tensor/mpc_tensor.py:982-1067"]}
{"id": "C89", "title": "Whole fixed-point computations on replicated shares", "statement": "A program of sums, differences, products, matrix products, powers, public operands and shape methods, in any nesting, run in a Falcon session of three parties on replicated shares of fixed-point numbers (ring 2^64, semi-honest or malicious) yields what the same program yields on real numbers, up to an error bound that follows from the program alone: errors of a sum add up, a product adds |x| dy + |y| dx + dx dy and less than two units for its truncation; provided no number leaves the range.", "quantifier": "all programs, shapes, values, sharings, zero shares, triples and random tensors, bases and precisions, both security modes", "why_tests_cant": "tests multiply once and compare with a tolerance; how errors grow through nested operators, and for which shares the truncation carries, needs all inputs", "anchors": ["src/sympc/protocol/falcon/falcon.py:86-182", "src/sympc/protocol/falcon/falcon.py:272-377", "src/sympc/protocol/aby3/aby3.py:71-150", "src/sympc/tensor/mpc_tensor.py:406-472", "src/sympc/encoder/fp_encoder.py:47-92"]}
{"id": "C90", "title": "A replicated share object gives back the values it was made of", "statement": "Building a replicated share object from a list of numbers and tensors and decoding it returns tensors of the same shapes whose elements are the values truncated toward zero by less than one unit of the encoding (exactly the values when they are multiples of it), in every supported ring; an unsupported ring is refused with ValueError. The ring size and the configuration that protocols read back from a share through get_ring_size and get_config (as text and as dictionary) are those the object works with.", "quantifier": "every ring size, configuration (base at least 1), session id and list of shares (numbers and tensors of any shape)", "why_tests_cant": "Tests build objects in the ring 2^64 with a few small values; they do not try rings whose type cannot hold the scaled values, negative values in the prime field, nor read the text of the ring size back for every object.", "anchors": ["src/sympc/tensor/replicatedshare_tensor.py:69-107", "src/sympc/tensor/replicatedshare_tensor.py:119-165"]}
