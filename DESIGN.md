# Formal model of SyMPC in Rocq (Coq 8.16.1)

The source in /repo (Python, torch>=1.6,<=1.8.1 according to setup.cfg) is modelled by
small total Gallina functions in `rocq/theories`.  Nothing is executed: the tie between model
and code is the citation (file and lines) carried by each definition.

## Layout

* `M_*.v`  — model: definitions only, one comment with file:lines per definition.
* `S_*.v`  — specifications: plain mathematics, independent of the model's helpers.
* `L_*.v`  — lemmas and proofs.
* `P_*.v`  — property theorems only (`Theorem … exact lemma`, `Print Assumptions`, an `Example`
  showing a concrete non-trivial instance of the hypotheses).

## Conventions

* Ring elements are `Z`; every torch integer operation wraps explicitly to the type of the tensor
  (`wrap 64 z` = two's complement representative).  `//` on integer tensors truncates toward
  zero (torch <= 1.8.1), `%` has the sign of the divisor, `>>` is arithmetic.
* Tensors are flat row-major lists of elements; shapes are `list nat`; broadcasting, matrix
  product and convolutions are given by index lists computed from the shapes.  A linear tensor
  operation is "each output is a sum of inputs", a bilinear one "each output is a sum of
  products"; protocols are proved for every such operation, the concrete ones are instances.
* Parties are positions in a list.  Remote calls are function calls; all randomness is an explicit
  argument, so every theorem holds for all outcomes.  Python exceptions are values.
* Mutable objects (stores, sessions, generators, graphs, parties' tensors) are states with `step`
  functions; statements about histories are inductions over lists of operations.
* External code is an argument with a stated contract: the pseudo-random generator (an arbitrary
  deterministic state machine), the function-secret-sharing library `sycret` (contract: the two
  evaluations add up to the comparison bit), uuid4 (supplied identifiers).

## Trusted base

* The kernel of Coq 8.16.1 and its `vm_compute` machine (used in witnesses). No plugin, no native
  compilation, no flag that turns a check off.
* Axioms: none of our own. `Print Assumptions` of the theorems in MANIFEST.json (also printed below
  each theorem during the build) gives these groups; all names are of the standard library and come
  with its real numbers.

  * **Closed under the global context** (352 theorems): all theorems not named below.
  * `ClassicalDedekindReals.sig_forall_dec`, `FunctionalExtensionality.functional_extensionality_dep`: C38_fixed_partial, C38_fixed_parties_partial, C39_fixed_partial, C42_real_numbers, C43_newton, C43_reciprocal, C43_chebyshev, C43_sigmoid_symmetry, C43_tanh_odd, C57_conv_fixed_partial, C59_fixed_sum_partial, C59_fixed_mean_partial, C60_maximum, C60_spread_refuted, C61_log_far, C64_maclaurin_refuted, C64_aliter_refuted, C65_zero, C65_large_refuted, C69_sign, C69_relu, C69_modulus, C69_hardtanh, C87_fixed_programs_partial, C87_carry_refuted, C89_replicated_partial, C89_carry_refuted.
  * `ClassicalDedekindReals.sig_forall_dec`, `ClassicalDedekindReals.sig_not_dec`, `FunctionalExtensionality.functional_extensionality_dep`: C43_chebyshev_cosine, C60_single, C60_tie_refuted, C60_entries_refuted, C71_interpolation, C71_odd, C71_tanh_nodes, C79_softmax_refuted.
  * `ClassicalDedekindReals.sig_forall_dec`, `ClassicalDedekindReals.sig_not_dec`, `Classical_Prop.classic`, `FunctionalExtensionality.functional_extensionality_dep`: C43_reciprocal_converges, C43_exp, C60_distribution_partial, C60_softmax_partial, C60_reciprocal, C61_log_step, C61_log, C61_reciprocal_log, C61_log_softmax_partial, C61_single, C61_tie_refuted, C61_spread_refuted, C61_many_refuted, C64_sigmoid, C64_tanh, C64_gradient, C64_sigmoid_refuted, C64_maclaurin, C64_aliter, C65_division, C65_public_numerator, C65_gradient, C65_small_refuted, C70_exp_negative, C70_exp_positive, C70_reciprocal, C70_division, C70_public_numerator, C70_sigmoid, C70_tanh, C79_softmax_partial, C80_log, C80_reciprocal, C80_log_softmax_partial, C80_log_refuted.
* The model itself: that each definition says what the cited lines do. Nothing checks this
  mechanically; the definitions are small and carry citations for that reason.
* torch (`M_Torch.v`, `M_Tensor.v`, `M_Float.v`): integer tensors wrap to their type, `//` truncates
  toward zero (torch <= 1.8.1), `%` has the sign of the divisor, `/` on integers is float32 division
  rounded to nearest even. Broadcasting, matrix products and convolutions are as documented by torch.
  Floats given by users are exact rationals; overflow, subnormals, inf and nan are not modelled.
* sycret (the function-secret-sharing library) is a pair of functions with the contract that for every
  generated key pair the two evaluations add up to the comparison bit (`S_Fss.v`); its own
  cryptography is outside. `P_Fss.v` gives a backend which satisfies the contract.
* Pseudo-random generators are arbitrary deterministic state machines; nothing is assumed about the
  numbers. The secrecy theorems (C04, C11) are bijections between the draws: they give perfect secrecy
  if the draws are uniform over the whole ring, which is not proved. The code draws from half of the
  ring only; C78 says what remains true then and what does not.
* PySyft: remote calls are calls, and objects sent arrive unchanged. The threads of
  `parallel_execution` interleave arbitrarily (`M_Parallel.v`), all else is sequential.

## What is modelled

| model file | repository code |
|------------|-----------------|
| M_Aby3.v | aby3.py bit decomposition and injection; falcon.py private comparison and selection |
| M_Approx.v | approximations/*.py except softmax, algorithms/algorithms.py, relu |
| M_Argmax.v | tensor/static.py argmax, max |
| M_Attr.v | tensor/tensor.py metaclass, MPCTensor.__getattribute__ |
| M_Autograd.v | autograd part of mpc_tensor.py, grads/grad_functions.py |
| M_Bits.v | utils/mpc_utils.py get_nr_bits, decompose |
| M_Circuit.v | programs over additive shared tensors (composition of methods) |
| M_Conv.v | mpc_tensor.py conv2d, conv_transpose2d with bias |
| M_Copy.v | session/session.py copy, protocol __eq__ |
| M_Dtype.v | sessions of other rings: types of secret and shares |
| M_EncObj.v | encoder/fp_encoder.py as an object |
| M_Encoder.v | encoder/fp_encoder.py, config/config.py |
| M_Engine.v | operators of MPCTensor as a record (interface of the algorithms) |
| M_Float.v | float32 arithmetic of torch (nearest even), encoder in single precision |
| M_Fss.v | protocol/fss/fss.py, relational operators of mpc_tensor.py |
| M_Grad.v | grads/grad_functions.py broadcasting helpers |
| M_GradConv.v | grads/grad_functions.py GradConv2d |
| M_GradFun.v | grads/grad_functions.py sigmoid and division nodes; division by a secret |
| M_Heap.v | which share objects the operations create or overwrite |
| M_Loss.v | module/nn/functional.py mse_loss |
| M_Module.v | module/__init__.py, module/nn/{linear,conv,smpc_module}.py |
| M_Opened.v | the values fss.py and spdz.py open at the orchestrator |
| M_Optim.v | optim/sgd.py |
| M_Parallel.v | utils/utils.py parallel_execution |
| M_Pool.v | module/nn/functional.py max_pool2d and backward, GradMaxPool2D |
| M_Program.v | programs with gradients: mpc_tensor.py backward, remaining grad_functions.py |
| M_RCircuit.v | programs over replicated shared tensors |
| M_Rep.v | tensor/replicatedshare_tensor.py, replicated branches of mpc_tensor.py, falcon.py, truncation and przs of aby3.py |
| M_RepDtype.v | replicated sessions of other rings |
| M_RepEngine.v | MPCTensor operators in Falcon and ABY3 sessions |
| M_RepNN.v | module/nn/*.py and optim/sgd.py in replicated sessions |
| M_RepObj.v | replicatedshare_tensor.py constructor with shares, decode, get_shares, get_ring_size, get_config |
| M_RepView.v | replicatedshare_tensor.py forwarded methods, division, shift, equality |
| M_Series.v | approximations/tanh.py chebyshev_series (real numbers) |
| M_Session.v | session/*.py, protocol/protocol.py, MPCTensor.share |
| M_Shape.v | the shape attribute of MPCTensor |
| M_Share.v | tensor/share_tensor.py, linear part of tensor/mpc_tensor.py, session przs |
| M_ShareObj.v | tensor/share_tensor.py single share objects with all fields |
| M_Softmax.v | approximations/softmax.py |
| M_Spdz.v | protocol/spdz/spdz.py, protocol/beaver/beaver.py, products, division, powers of tensor/mpc_tensor.py, count_wraps |
| M_Static.v | tensor/static.py stack, cat |
| M_Store.v | store/*.py, store functions of beaver.py and fss.py, the provider, logging |
| M_Tensor.v | torch: broadcasting, shape methods, products, convolutions |
| M_Torch.v | torch integer tensors; utils/mpc_utils.py (ring sizes, types); the ring-dependent operations |

Simplifications are stated in the comment of each definition.

## What is not modelled

* Real networking, serialisation (protobuf), VirtualMachine and Duet clients, logging output.
* `__str__`, `__repr__`, trivial getters and setters.
* The remote/websocket variants of `MPCTensor` construction other than "the value lives at a party".
* float32 is exact rationals rounded to 24 bits: no overflow, subnormals, inf or nan. C02 uses exact
  rationals, C63 the rounding.
* Numeric behaviour of the approximations: C43, C60, C61, C64, C65, C71 are about real numbers;
  C69, C70, C79, C80 are about the fixed-point protocol itself with the default encoder.
* Cryptographic security beyond C04, C11, C17, C20, C21, C75-C78, C84; timing; memory.
* Views of torch tensors: modelled as copies, except where `M_Heap.v` says otherwise.

## Properties

Status: P proved, p partial (restricted or refuted; see the note in MANIFEST.json).

| id | title | status | file | main idea of the proof |
|----|-------|--------|------|------------------------|
| C01 | Decoding is division by the scale | P | P_Encoder.v | integer division |
| C02 | Fixed-point encoding loses less than one unit in the last place | p | P_Encoder.v | rational truncation |
| C03 | Splitting a secret and reconstructing it is lossless | P | P_Share.v | telescoping sum |
| C04 | All but one share reveal nothing about the secret | P | P_Share.v | explicit bijection of the draws |
| C05 | Sharing a value that lives at a party | p | P_Share.v | as C03 with the holder |
| C06 | Zero shares add to zero after any history | p | P_Session.v | invariant over histories of generators |
| C07 | Random replicated sharings are consistent | P | P_Session.v | cyclic telescoping |
| C08 | Addition and subtraction of shared tensors | p | P_Circuit.v, P_Share.v | congruence modulo 2^64 |
| C09 | Shape operations commute with reconstruction | p | P_Circuit.v, P_Share.v | index maps commute with sums |
| C10 | Shared multiplication is exact in the ring | P | P_Mul.v | bilinearity for every bilinear operation |
| C11 | Opened masks reveal nothing about the operands | P | P_Mul.v | bijection |
| C12 | Two-party rescaling is accurate to one unit unless the shares wrap | P | P_Div.v | case analysis of truncation and wraps |
| C13 | The wrap counter counts wraps | p | P_Div.v | induction over the shares |
| C14 | Public division with three or more parties | p | P_Div.v | exact identity, error bound |
| C15 | Operations leave their operands unchanged | p | P_Div.v | heap with addresses |
| C16 | Replicated sharing: every party gets all shares but one, and reconstruction is lossless | P | P_Rep.v | rotation of share lists |
| C17 | A single cheating party cannot alter a malicious-secure reconstruction | p | P_Rep.v | difference argument |
| C18 | Replicated linear arithmetic | p | P_RCircuit.v, P_Rep.v | congruence per ring |
| C19 | Replicated multiplication is exact in the ring | P | P_Rep.v, P_RepObj.v | cross terms |
| C20 | Malicious multiplication accepts exactly the correct products | P | P_Rep.v | ring identity |
| C21 | Invalid multiplication triples are rejected when they are generated | p | P_Rep.v | acceptance condition |
| C22 | Three-party rescaling is accurate to one unit unless the shares wrap | P | P_Rep.v | as C12 |
| C23 | Arithmetic modulo 67 never overflows its machine type | P | P_Rep.v | intervals |
| C24 | Bit injection preserves the bit | p | P_Aby.v | protocol composition |
| C25 | Bit decomposition gives the binary digits of the secret | P | P_Aby.v | ripple-carry induction |
| C26 | Oblivious selection | p | P_Aby.v | protocol composition |
| C27 | Private comparison with a public value | p | P_Aby.v | first differing bit |
| C28 | Shared comparisons and equality agree with the plain ones | p | P_Fss.v | 32-bit arithmetic over an oracle |
| C29 | Each precomputed triple is used once and in order | p | P_Store.v | refinement to queues |
| C30 | A multiplication consumes a triple made for it | p | P_Store.v | keys of the store |
| C31 | Comparison keys are always available after on-demand generation | p | P_Store.v | refinement to queues |
| C32 | Primitive generation hands party k the k-th component | P | P_Store.v | transposition |
| C33 | Recorded primitive needs can be replayed | p | P_Store.v | replay of logs |
| C34 | Parallel execution is deterministic | P | P_Parallel.v | commutation of independent steps |
| C35 | Session parameters | p | P_Session.v | case analysis |
| C36 | Session set-up | P | P_Session.v | histories |
| C37 | Sharing through .share() does not depend on earlier calls | p | P_Session.v | cache invariant |
| C38 | Powers | p | P_Circuit.v, P_FixProg2.v, P_FixedSort.v | loop invariant of binary powering |
| C39 | Sorting | p | P_FixedSort.v, P_Sort.v | bubble sort invariant |
| C40 | Maximum and argmax | p | P_Argmax.v, P_ArgmaxF.v | counting comparisons |
| C41 | stack and cat | p | P_Static.v | shares and shapes |
| C42 | Sign, absolute value, relu and hardtanh | p | P_Real.v, P_Sort.v | C28 at every position |
| C43 | Iterative approximations converge as documented | P | P_Real.v | real analysis |
| C44 | Back-propagation computes the chain rule | p | P_Autograd.v, P_AutogradOff.v, P_Deriv.v, P_Flow.v | induction over histories of a graph |
| C45 | Gradients of broadcast operands | p | P_Grad.v | adjointness of broadcasting |
| C46 | Max pooling | p | P_Pool.v | C40 on windows |
| C47 | Max pooling gradient | p | P_Pool.v | scatter of one-hot windows |
| C48 | Optimiser step | p | P_Optim.v | store of parameters |
| C49 | Whole computations | p | P_Circuit.v, P_RCircuit.v | induction over programs |
| C50 | Every supported ring size works for addition | p | P_Dtype.v | typed tensors |
| C51 | Bit decomposition helper | p | P_Bits.v | float32 rounding |
| C52 | Convolution and matmul shapes | p | P_Conv.v | shape equations |
| C53 | Protocol registry | P | P_Session.v | map of names |
| C54 | Equality of shares is an equivalence | p | P_Session.v | case analysis |
| C55 | Bias of convolutions | p | P_Conv.v | broadcast of the bias |
| C56 | Sharing a module and taking it back | p | P_Module.v, P_Params.v | induction over layers |
| C57 | Forward pass of the shared layers | p | P_FixProg2.v, P_Module.v | C10 and C55 |
| C58 | Comparing layers | p | P_Module.v | case analysis |
| C59 | Mean squared error | p | P_FixProg2.v, P_Loss.v | C38 and C12 |
| C60 | Softmax | p | P_Softmax.v | bounds by repeated squaring |
| C61 | Logarithm and log-softmax | p | P_Softmax.v | mean value theorem |
| C62 | Gradient of the convolution | p | P_GradConv.v | index equations of the transposed convolution |
| C63 | The encoder in single precision | P | P_Float.v | error analysis of float32 |
| C64 | Sigmoid, tanh and the gradient of sigmoid | P | P_Sigmoid.v | real analysis |
| C65 | Division by a secret and its gradient | P | P_Sigmoid.v | real analysis |
| C66 | Forwarded methods of replicated tensors | p | P_RepView.v | index maps per ring |
| C67 | Division and shift of replicated tensors | p | P_RepView.v | case analysis of floor division |
| C68 | Equality of replicated share objects | p | P_RepView.v | equivalence relation per fields |
| C69 | Sign, absolute value, relu and hardtanh of fixed-point secrets | P | P_Fixed.v | instrumented engine, intervals |
| C70 | exp, reciprocal, sigmoid, tanh and quotients with the default encoder | P | P_Fixed.v | instrumented engine, error propagation |
| C71 | The Chebyshev series of tanh | P | P_Series.v | orthogonality of cosines |
| C72 | Share objects without a session | p | P_ShareObj.v, P_ShareObj2.v | congruence per ring and dtype |
| C73 | Copies of sessions, equality of protocols | p | P_Copy.v | case analysis |
| C74 | Attributes of tensors and the recording of gradients | p | P_Attr.v | lookup order |
| C75 | What a comparison reveals | p | P_Opened.v | bijection; witness of visible bits |
| C76 | What a division reveals | p | P_Opened.v | bijection; theta is the wrap count |
| C77 | What replicated sharings and products reveal | p | P_RepPriv.v | bijection per party |
| C78 | What shares reveal with the random numbers the code draws | p | P_Draw.v | bijection of the movable draws |
| C79 | Softmax in fixed point | p | P_FixedSoft.v | C70 over sums |
| C80 | Logarithm and log_softmax in fixed point | p | P_FixedLog.v | C70 over sums |
| C81 | Comparisons and approximations with replicated shares | p | P_RepEngine.v, P_RepEngine2.v | every path raises |
| C82 | Ring sizes with replicated shares | p | P_RepDtype.v | congruence per dtype |
| C83 | Layers, loss and optimiser with replicated shares | p | P_RepNN.v | composition |
| C84 | What truncation and malicious verification reveal | p | P_RepPriv2.v | bijection per party |
| C85 | Encoders whose base or precision is assigned | P | P_EncObj.v | object invariant |
| C86 | The sessions known to a process | P | P_EncObj.v | map invariant |
| C87 | Whole fixed-point computations | p | P_FixProg.v | error bounds by induction over programs |
| C88 | The shape attribute of a shared tensor | p | P_Shape.v | shapes follow the secrets |
| C89 | Whole fixed-point computations on replicated shares | p | P_RFixProg.v | error bounds by induction over programs |
| C90 | A replicated share object gives back the values it was made of | p | P_RepRead.v |  |

Where the code violates a property the theorem is `…_refuted` with a witness and the strongest
true restriction is proved next to it (`…_partial`).

## How to read seeded/LOG.jsonl

Each line is one edit of the model in a scratch copy. `failed` lists the property theorems that
were no longer proved after the edit: their own script failed, or a lemma they use failed. A
failing script does not by itself show that the statement became false; the control edits marked
in `note` change nothing that matters and still break scripts. The informative direction is the
other one: a theorem that is *not* listed still proves for the edited model, and if its claim is
false there the statement is too weak. Theorem names in the log follow the current names.
