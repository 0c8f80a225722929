{
 "claims": [
  {
   "property": "C01",
   "status": "proved",
   "theorems": [
    "C01_decode_is_division"
   ],
   "note": ""
  },
  {
   "property": "C02",
   "status": "partial",
   "theorems": [
    "C02_encode_decode_error_partial",
    "C02_large_integer_refuted"
   ],
   "note": "REFUTED outside 64 bits. Proved for values whose scaled value fits 64 bits; arithmetic of the float multiplication is exact rational arithmetic (float32 rounding is the subject of C63). C02_large_integer_refuted: outside that range encoding silently wraps."
  },
  {
   "property": "C03",
   "status": "proved",
   "theorems": [
    "C03_split_reconstruct",
    "C03_distribution",
    "C03_few_parties"
   ],
   "note": "Ring 2^64; the random draws are arguments."
  },
  {
   "property": "C04",
   "status": "proved",
   "theorems": [
    "C04_privacy"
   ],
   "note": "Bijection on the draws over the full ring, as the statement says; the code draws from half of the ring, see C78."
  },
  {
   "property": "C05",
   "status": "partial",
   "theorems": [
    "C05_remote_secret",
    "C05_foreign_holder_refuted"
   ],
   "note": "The value and share claims are proved; the last clause (refusal of a holder outside the session) is REFUTED."
  },
  {
   "property": "C06",
   "status": "partial",
   "theorems": [
    "C06_zero_shares_partial",
    "C06_prime_refuted",
    "C06_bits_always_fail"
   ],
   "note": "Proved for replicated sharings in every ring and for additive sharings in 2^8..2^64; REFUTED for additive sharings in the prime ring 67 (differences are not reduced) and impossible in the ring 2 for additive sharings."
  },
  {
   "property": "C07",
   "status": "proved",
   "theorems": [
    "C07_random_sharing"
   ],
   "note": "For any number of parties, not only three. The generator is an arbitrary deterministic generator."
  },
  {
   "property": "C08",
   "status": "partial",
   "theorems": [
    "C08_add_sub_private",
    "C08_add_sub_public",
    "C08_refused",
    "C08_rsub_integer",
    "C08_rsub_fixed_point",
    "C08_rsub_wrap_refuted"
   ],
   "note": "Sums and differences proved for all inputs. Public minus shared: exact in integer sessions; exact in base-2 fixed point when the intermediate product by -1.0 does not wrap; REFUTED when it wraps (C08_rsub_wrap_refuted)."
  },
  {
   "property": "C09",
   "status": "partial",
   "theorems": [
    "C09_shape_methods",
    "C09_shape_elements",
    "C09_after_public_broadcast_refuted"
   ],
   "note": "Proved for every tensor whose shares have its shape; REFUTED for tensors produced by adding a larger public operand."
  },
  {
   "property": "C10",
   "status": "proved",
   "theorems": [
    "C10_product_exact",
    "C10_generated_triples",
    "C10_rescaled_product"
   ],
   "note": "Ring 2^64."
  },
  {
   "property": "C11",
   "status": "proved",
   "theorems": [
    "C11_openings_one_to_one",
    "C11_joint_view"
   ],
   "note": "Bijections on the draws over the full ring (all triples, as the statement says); the code draws from half of the ring, see C78."
  },
  {
   "property": "C12",
   "status": "proved",
   "theorems": [
    "C12_two_party_rescaling",
    "C12_wrapping_shares"
   ],
   "note": ""
  },
  {
   "property": "C13",
   "status": "partial",
   "theorems": [
    "C13_wrap_counter",
    "C13_wrap_counter_partial",
    "C13_min_int_refuted"
   ],
   "note": "REFUTED when the running sum and the next value are both -2^63 (C13_min_int_refuted); C13_wrap_counter says exactly what is counted."
  },
  {
   "property": "C14",
   "status": "partial",
   "theorems": [
    "C14_public_division_partial",
    "C14_divisor_three_refuted"
   ],
   "note": "REFUTED as stated: the wrap correction is computed in float32, so divisors that are not powers of two are off by billions (C14_divisor_three_refuted). Proved for exact corrections (precision 0, or base 2 and divisor 2^p > n+1)."
  },
  {
   "property": "C15",
   "status": "partial",
   "theorems": [
    "C15_operands_unchanged_partial",
    "C15_division_effect",
    "C15_division_refuted"
   ],
   "note": "REFUTED for division among three or more parties, which overwrites its operand; proved for every other operation and for two parties. Torch views are modelled as copies."
  },
  {
   "property": "C16",
   "status": "proved",
   "theorems": [
    "C16_distribution",
    "C16_reconstruct",
    "C16_wrong_count"
   ],
   "note": "A wrong number of shares: distribute_shares returns (does not raise) a ValueError object and sends nothing; the tensor constructor then raises TypeError."
  },
  {
   "property": "C17",
   "status": "partial",
   "theorems": [
    "C17_tampering",
    "C17_three_parties",
    "C17_honest",
    "C17_shape_refuted",
    "C17_extra_share_refuted"
   ],
   "note": "Proved for every modification by ring tensors of the tensor's own shape. REFUTED for modifications of another shape (broadcasting hides them and the result has the cheating party's shape) and, with three parties, for an appended share of zeros (undetected, but without effect on the value)."
  },
  {
   "property": "C18",
   "status": "partial",
   "theorems": [
    "C18_private",
    "C18_public",
    "C18_public_product",
    "C18_public_product_mpc",
    "C18_public_matmul",
    "C18_rsub_partial",
    "C18_rsub_scaled",
    "C18_zero_dim_refuted",
    "C18_rsub_method_refuted",
    "C18_parties_refuted",
    "C18_prime_matmul_refuted"
   ],
   "note": "Sums, differences and products with public values proved in every ring. REFUTED: the share objects' rsub computes shared minus public; products with public values raise for other than three parties; matrix products by public values are not reduced modulo 67. Public minus shared (MPCTensor) proved in every ring for unscaled values, and for scaled ones where nothing wraps (C18_rsub_scaled); REFUTED for tensors without dimensions, whose result has shape [1]."
  },
  {
   "property": "C19",
   "status": "proved",
   "theorems": [
    "C19_product_shares",
    "C19_objects",
    "C19_product_exact",
    "C19_product_scaled"
   ],
   "note": "Element-wise in every ring, matrix products in the rings 2^k (the code has none for bits and the prime field)."
  },
  {
   "property": "C20",
   "status": "proved",
   "theorems": [
    "C20_verification",
    "C20_error_caught",
    "C20_honest"
   ],
   "note": "Errors in the additive shares of the product; the openings of eps and delta are made without the malicious check in the code and are assumed honest."
  },
  {
   "property": "C21",
   "status": "partial",
   "theorems": [
    "C21_triples_partial",
    "C21_triples_refuted"
   ],
   "note": "REFUTED: a triple wrong in some but not all elements is accepted; exact acceptance condition proved."
  },
  {
   "property": "C22",
   "status": "proved",
   "theorems": [
    "C22_truncation"
   ],
   "note": "Base 2. The example shows a wrapping sharing with a wrong result."
  },
  {
   "property": "C23",
   "status": "proved",
   "theorems": [
    "C23_prime_field",
    "C23_other_types"
   ],
   "note": ""
  },
  {
   "property": "C24",
   "status": "partial",
   "theorems": [
    "C24_bit_injection_partial",
    "C24_wrong_ring",
    "C24_zero_dim_refuted"
   ],
   "note": "Every supported target ring, both security modes, all tensors of at least one dimension. REFUTED for tensors without dimensions: the value is right but the shape becomes [1] (C24_zero_dim_refuted)."
  },
  {
   "property": "C25",
   "status": "proved",
   "theorems": [
    "C25_bit_decomposition",
    "C25_digits",
    "C25_ttp"
   ],
   "note": "Rings 2^n, both variants (adder circuit, and the variant in which the orchestrator opens the value)."
  },
  {
   "property": "C26",
   "status": "partial",
   "theorems": [
    "C26_selection_partial",
    "C26_zero_dim_refuted"
   ],
   "note": "Every session ring; bits of at least one dimension, broadcast against the data. REFUTED for bits without dimensions: the value is right but the shape becomes [1] (C26_zero_dim_refuted)."
  },
  {
   "property": "C27",
   "status": "partial",
   "theorems": [
    "C27_exact",
    "C27_compare_partial",
    "C27_mask",
    "C27_equality_refuted"
   ],
   "note": "REFUTED for x = r: the result is then the negated internal random bit. Exact result proved for numbers of up to 65 bits; x >= r decided correctly wherever x and r differ or the random bit is 0."
  },
  {
   "property": "C28",
   "status": "partial",
   "theorems": [
    "C28_exact",
    "C28_comparison_partial",
    "C28_public_operand_partial",
    "C28_two_parties_only",
    "C28_distant_refuted",
    "C28_carry_refuted"
   ],
   "note": "Exact result of the six operators proved for two parties and every correct backend; it is the relation between the secrets when they are less than 2^31-1 units apart. REFUTED for larger distances (comparison on 32 bits) and for words with a carry (sign extension); other numbers of parties raise."
  },
  {
   "property": "C29",
   "status": "partial",
   "theorems": [
    "C29_queue_partial",
    "C29_torch_size_refuted"
   ],
   "note": "Proved for every history in which primitives are added under tuple shapes (what the code itself does); REFUTED for primitives added under a torch.Size or list shape, which are never found."
  },
  {
   "property": "C30",
   "status": "partial",
   "theorems": [
    "C30_triples_partial",
    "C30_products_partial",
    "C30_convolution_refuted"
   ],
   "note": "Operation and shapes proved, hence valid triples for element-wise and matrix products; REFUTED for the convolution parameters, which are not part of the store key."
  },
  {
   "property": "C31",
   "status": "partial",
   "theorems": [
    "C31_keys_once",
    "C31_on_demand_partial",
    "C31_preloaded_partial",
    "C31_small_preload_refuted",
    "C31_two_parties_only"
   ],
   "note": "Same keys for masking and evaluating and no reuse: proved. Availability: REFUTED after preloading fewer keys than a later comparison needs; proved on demand and after large enough preloads."
  },
  {
   "property": "C32",
   "status": "proved",
   "theorems": [
    "C32_generation",
    "C32_refused",
    "C32_registration"
   ],
   "note": ""
  },
  {
   "property": "C33",
   "status": "partial",
   "theorems": [
    "C33_replay_partial",
    "C33_comparisons_refuted",
    "C33_file_refuted"
   ],
   "note": "Proved for products, matrix products and convolutions; REFUTED for comparisons (they never use stored keys up) and when the record is written to a file."
  },
  {
   "property": "C35",
   "status": "partial",
   "theorems": [
    "C35_construction",
    "C35_bounds_partial",
    "C35_prime_bounds_refuted"
   ],
   "note": "Construction conditions proved; bounds proved for the power-of-two rings and REFUTED for the prime ring 67 (whose values are 0..66)."
  },
  {
   "property": "C36",
   "status": "proved",
   "theorems": [
    "C36_setup",
    "C36_different_sessions",
    "C36_second_setup_fails"
   ],
   "note": "C36_second_setup_fails: setting the same session up a second time raises IndexError."
  },
  {
   "property": "C37",
   "status": "partial",
   "theorems": [
    "C37_one_session_partial",
    "C37_keyword_refuted",
    "C37_repeated_client_refuted"
   ],
   "note": "REFUTED: with requires_grad the first call raises and an identical second call succeeds; a client listed twice makes the outcome depend on earlier calls. Proved for calls without keyword arguments and distinct clients."
  },
  {
   "property": "C38",
   "status": "partial",
   "theorems": [
    "C38_power_partial",
    "C38_zero_dim_refuted",
    "C38_other_exponents",
    "C38_fixed_partial",
    "C38_fixed_parties_partial"
   ],
   "note": "Tensors of at least one dimension: exact in integer sessions; in fixed-point sessions of two parties within a stated bound if no shares carry (C38_fixed_partial). REFUTED for tensors without dimensions: the shape becomes [1] (C38_zero_dim_refuted). Fixed-point sessions of any number of parties, inputs known up to any error: within a computed bound (C38_fixed_parties_partial), for runs whose rescalings are accurate (as in C87)."
  },
  {
   "property": "C39",
   "status": "partial",
   "theorems": [
    "C39_sort_partial",
    "C39_shapes",
    "C39_caller_list_refuted",
    "C39_distant_refuted",
    "C39_fixed_partial"
   ],
   "note": "Two parties, integer secrets, any two closer than 2^31-1, every sharing, triple supply and backend: a sorted permutation in the requested direction. REFUTED: the caller's list is overwritten. Fixed-point secrets: every result within 3(n-1)(4 + b/scale) units of the sorted one if no shares carry (C39_fixed_partial). REFUTED for distant values: 0 and 3000000000 in ascending order come out descending."
  },
  {
   "property": "C42",
   "status": "partial",
   "theorems": [
    "C42_sign_partial",
    "C42_modulus_partial",
    "C42_relu_partial",
    "C42_hardtanh_partial",
    "C42_real_numbers",
    "C42_large_refuted"
   ],
   "note": "Two parties, integer secrets below 2^31-1: exact at every position. REFUTED for larger values (relu(3000000000) = 0). Fixed-point secrets: C69."
  },
  {
   "property": "C43",
   "status": "proved",
   "theorems": [
    "C43_newton",
    "C43_reciprocal",
    "C43_reciprocal_converges",
    "C43_chebyshev",
    "C43_chebyshev_cosine",
    "C43_exp",
    "C43_sigmoid_symmetry",
    "C43_tanh_odd",
    "C43_unknown_method"
   ],
   "note": "Real-number semantics: the same model of the algorithms run over the reals (rounding of the fixed-point protocols: C70). Uses the standard library's axioms of the reals."
  },
  {
   "property": "C34",
   "status": "proved",
   "theorems": [
    "C34_deterministic",
    "C34_some_schedule",
    "C34_refused"
   ],
   "note": "Workers touch only their own party's state. C34_refused: no argument list at all raises ValueError, fewer parties than argument lists IndexError."
  },
  {
   "property": "C40",
   "status": "partial",
   "theorems": [
    "C40_one_hot_partial",
    "C40_dim_partial",
    "C40_dim_ties",
    "C40_flat_partial",
    "C40_flat_ties",
    "C40_max_ties_refuted",
    "C40_argmax_ties_refuted",
    "C40_none_dim_refuted",
    "C40_fixed_partial",
    "C40_fixed_flat_partial"
   ],
   "note": "Two parties, integer secrets closer than 2^31-1, every shape, dimension, keepdim, sharing, triple supply and backend: the one-hot result marks exactly the largest values of each line; if the largest value of each line is unique, max and argmax are right (with dim, and without dim for lists). In general max is (number of ties) * maximum and argmax the sum of the tied positions. REFUTED: max of 5,5 is 10; argmax of 0,5,5,1 is 3 without an exception; without dim on a column 3,2,1 argmax is 1, and max of a 2x2 tensor raises. Fixed-point secrets: the one-hot result exact, max and argmax within one unit per element of the line if no shares carry. Replicated sessions have no comparisons: see C81 (argmax itself is modelled for additive shares only)."
  },
  {
   "property": "C41",
   "status": "partial",
   "theorems": [
    "C41_stack_any_dim",
    "C41_stack_partial",
    "C41_cat_partial",
    "C41_replicated_cat_partial",
    "C41_stack_dim_refuted",
    "C41_cat_dim_refuted",
    "C41_cat_sizes_refuted",
    "C41_replicated_stack_refuted",
    "C41_replicated_ring_refuted"
   ],
   "note": "Proved along dimension 0 for any number of parties and tensors. REFUTED along other dimensions (the shares are always joined along dimension 0), for stacking replicated tensors (AttributeError) and for cat of replicated tensors in rings smaller than 2^64 (the ring is forgotten)."
  },
  {
   "property": "C44",
   "status": "partial",
   "theorems": [
    "C44_chain_partial",
    "C44_flow_partial",
    "C44_error",
    "C44_derivatives",
    "C44_branch_refuted",
    "C44_twice_refuted",
    "C44_leaf_refuted",
    "C44_rsub_refuted",
    "C44_vector_refuted",
    "C44_scalar_refuted",
    "C44_off"
   ],
   "note": "Two parties, integer secrets, every program made of +, -, *, @, **k, relu, sum, t, reshape/flatten and backward calls, any sharing of sub-expressions: every kept gradient is a sharing of the sum over all paths of products of derivatives (whose meaning as derivatives is C44_derivatives). Restriction: what a call of backward reaches is not used outside the root and was not reached before. REFUTED without it: a branch that does not lead to the result stops propagation, a second backward multiplies gradients, backward on a leaf turns recording off for good, c - x loses its gradient, matrix-vector products raise in backward, the gradient of a 0-dimensional subtrahend has shape [1]. C44_flow_partial: for any session and any gradient functions (division, sigmoid, convolution, max pooling, fixed point included) every fair call that raises nothing gives each wanted tensor the sum of one result of the user's backward function for each use, called with the user's whole gradient; C44_error adds up the errors of inexact functions. Missing: exact values for division, sigmoid, convolution, max pooling and fixed-point secrets inside graphs."
  },
  {
   "property": "C45",
   "status": "partial",
   "theorems": [
    "C45_adjoint_partial",
    "C45_empty_refuted"
   ],
   "note": "Shape and adjointness (modulo 2^64) proved for all broadcastable shapes without empty dimensions. REFUTED when a dimension of size 1 is broadcast to an empty one: the gradient keeps the empty dimension."
  },
  {
   "property": "C46",
   "status": "partial",
   "theorems": [
    "C46_pool_partial",
    "C46_refusals",
    "C46_tie_refuted",
    "C46_row_refuted",
    "C46_padding_refuted",
    "C46_arguments_refuted"
   ],
   "note": "Two parties, integer secrets, every size, kernel, stride and padding: max_pool2d returns the largest real entry of every window if it stands once in the window, is above -25 when the window has padding, and no row of the window repeats a positive row maximum. C46_refusals: whatever is accepted has kernel and stride of at least 1, padding between 0 and the kernel, dilation 1, a kernel not above the padded input. REFUTED in general: a repeated maximum is doubled; a row with a repeated maximum gives a value that is no entry of the window; entries below -25 lose against the padding (in fixed-point sessions the constant is -25 raw, about -0.0004); paddings above half the kernel are accepted and windows without real entries return -25. Missing: fixed-point secrets."
  },
  {
   "property": "C47",
   "status": "partial",
   "theorems": [
    "C47_gradient_partial",
    "C47_dimensions",
    "C47_padding_refuted",
    "C47_tie_refuted",
    "C47_row_refuted"
   ],
   "note": "GradMaxPool2D forward then backward, two parties, integer secrets, windows as in C46: the gradient has the shape of the input and at every entry the sum of the gradients of the windows which selected it, for 3-D inputs with any padding and 4-D inputs without padding. C47_dimensions: other ranks are refused. REFUTED for 4-D inputs with padding: the result's shares are smaller than the input; for windows with a repeated maximum (each gets the whole gradient) and windows with a row that repeats its positive maximum (that row gets the gradient although the largest entry is elsewhere). Missing: fixed-point secrets."
  },
  {
   "property": "C48",
   "status": "partial",
   "theorems": [
    "C48_step_partial",
    "C48_zero_grad",
    "C48_step_after_zero_grad",
    "C48_missing_gradient_refuted",
    "C48_listed_twice_refuted",
    "C48_scalar_shape_refuted"
   ],
   "note": "zero_grad: proved for every list. step: proved for every list of distinct parameters in sessions with additive shares, each with a gradient of its own (non-scalar) shape whose product with lr is divided accurately; replicated sessions: see C83. REFUTED in full: a parameter without gradient raises TypeError after earlier ones moved (and leaves AUTOGRAD_IS_ON off), a parameter listed twice moves twice, a 0-dimensional parameter changes its shape."
  },
  {
   "property": "C49",
   "status": "partial",
   "theorems": [
    "C49_programs_partial",
    "C49_replicated_partial",
    "C49_public_left_refuted"
   ],
   "note": "Additive sessions of any number of parties (there also convolutions and transposed convolutions) and replicated sessions of three parties (both security modes, every ring, the methods of C66, sums along dimensions in 2^64); positive powers of tensors with dimensions in both. Not covered: public minus shared for tensors without dimensions, public operands that enlarge the shape of a sum. REFUTED for a public matrix on the left of a replicated one: always NotImplementedError (C49_public_left_refuted)."
  },
  {
   "property": "C50",
   "status": "partial",
   "theorems": [
    "C50_sum_congruent_partial",
    "C50_small_rings_wrap",
    "C50_small_ring_refuted",
    "C50_prime_refuted",
    "C50_bits_never_shared"
   ],
   "note": "Additive sessions. Proved: in the rings 2^8, 2^16, 2^32, 2^64 a secret is reconstructed exactly and a sum up to a multiple of the ring size (exactly in 2^64); it is exact in the smaller rings iff the two last random tensors add without overflow. REFUTED for 2^8, 2^16, 2^32 (off by the ring size), for 67 (not even congruent) and for 2 (nothing can be shared: RuntimeError). Replicated sessions: see C82."
  },
  {
   "property": "C51",
   "status": "partial",
   "theorems": [
    "C51_nr_bits",
    "C51_digits_partial",
    "C51_negative_refuted",
    "C51_large_refuted"
   ],
   "note": "Proved for non-negative values with at most 24 significant digits in the rings 2^8, 67, 2^16, 2^32, 2^64 (negative ones give the negated digits of the absolute value). REFUTED for negative values and for values of more than 24 digits; the ring 2 is refused."
  },
  {
   "property": "C52",
   "status": "partial",
   "theorems": [
    "C52_shape_partial",
    "C52_returns",
    "C52_public_shape",
    "C52_rmatmul_shape",
    "C52_groups_refuted",
    "C52_padding_refuted"
   ],
   "note": "Whenever an operation returns, the three shapes agree, for every stride, padding, dilation and groups. REFUTED that it returns for all parameters torch accepts: it also needs torch to accept the shapes without the keyword arguments (groups > 1, kernels larger than the unpadded image raise). Products with a public operand always return. Additive sessions (convolutions of replicated tensors always raise, see C83); tuple-valued parameters not modelled."
  },
  {
   "property": "C53",
   "status": "proved",
   "theorems": [
    "C53_registry"
   ],
   "note": ""
  },
  {
   "property": "C54",
   "status": "partial",
   "theorems": [
    "C54_equality_partial",
    "C54_transitivity_refuted"
   ],
   "note": "Reflexive and symmetric; transitivity REFUTED (shares whose sessions are unset compare equal to both)."
  },
  {
   "property": "C55",
   "status": "partial",
   "theorems": [
    "C55_shared_bias",
    "C55_single_public_bias",
    "C55_public_bias_fails",
    "C55_public_bias_refuted"
   ],
   "note": "Proved for a shared bias and for a public bias of one element; REFUTED for a public bias of two or more elements, which always raises. Additive sessions; convolutions of replicated tensors always raise (C83)."
  },
  {
   "property": "C56",
   "status": "partial",
   "theorems": [
    "C56_round_trip_partial",
    "C56_parameters",
    "C56_flatten_fails",
    "C56_flatten_refuted",
    "C56_no_bias_fails",
    "C56_no_bias_refuted",
    "C56_groups_fail",
    "C56_groups_refuted",
    "C56_remote_refuted",
    "C56_unsupported"
   ],
   "note": "Proved for Linear layers (with or without bias, local or at a party) and for Conv2d layers with a bias in one group (at a party only with default stride, padding, dilation). REFUTED for Flatten and for Conv2d without a bias or with several groups (all raise on reconstruction), and for Conv2d at a party, which loses its stride, padding and dilation. Additive sessions."
  },
  {
   "property": "C57",
   "status": "partial",
   "theorems": [
    "C57_linear_exact",
    "C57_linear_fixed",
    "C57_conv_exact_partial",
    "C57_conv_no_bias_fails",
    "C57_conv_no_bias_refuted",
    "C57_conv_fixed_partial"
   ],
   "note": "Linear: proved for inputs of any shape, exact in integer sessions and with the rescaling error of C10 otherwise. Conv2d with a bias: exact in integer sessions when the convolution with default arguments also exists (C52); in fixed point within a computed bound of the real convolution, for runs whose rescalings are accurate (C57_conv_fixed_partial); REFUTED without a bias (AttributeError). Additive sessions; replicated ones: see C83."
  },
  {
   "property": "C58",
   "status": "partial",
   "theorems": [
    "C58_eq_close_partial",
    "C58_no_bias_refuted"
   ],
   "note": "Proved when at least one layer has a bias; REFUTED for two layers without one (TypeError)."
  },
  {
   "property": "C59",
   "status": "partial",
   "theorems": [
    "C59_sum",
    "C59_mean_value",
    "C59_mean_partial",
    "C59_mean_refuted",
    "C59_unknown_reduction",
    "C59_fixed_sum_partial",
    "C59_fixed_mean_partial"
   ],
   "note": "Additive sessions (replicated ones: see C83) of any number of parties with integer encoding (precision 0). Sum: proved for every shape with at least one dimension. Mean: proved for one dimension, with the error bound of the division; REFUTED for more dimensions, where the sum is divided by the first dimension instead of the number of elements. Fixed-point sessions: sum and quotient within computed bounds of the real ones, for runs whose divisions are accurate (C59_fixed_sum_partial, C59_fixed_mean_partial)."
  },
  {
   "property": "C60",
   "status": "partial",
   "theorems": [
    "C60_maximum",
    "C60_distribution_partial",
    "C60_softmax_partial",
    "C60_single",
    "C60_reciprocal",
    "C60_spread_refuted",
    "C60_tie_refuted",
    "C60_entries_refuted"
   ],
   "note": "Real-number semantics (operators without rounding). Proved for lines of 2 to 500 entries whose largest one occurs once (or is 0), spread over at most 256 (order, range, sum) or B < 16 (closeness to softmax up to the factor 1 - B^2/256), and for one entry. REFUTED for wide spreads, for repeated largest entries and for 600 entries, where probabilities are negative. Fixed-point rounding: see C79."
  },
  {
   "property": "C61",
   "status": "partial",
   "theorems": [
    "C61_log_step",
    "C61_log",
    "C61_reciprocal_log",
    "C61_log_softmax_partial",
    "C61_single",
    "C61_tie_refuted",
    "C61_spread_refuted",
    "C61_log_far",
    "C61_many_refuted"
   ],
   "note": "Real-number semantics. The step and the bounds on 1/100..150 are proved as stated; log_softmax is proved for the lines of C60_softmax_partial (2 to 150 entries, unique or zero largest entry, spread below 16). REFUTED for a repeated largest entry (256 and 256 give numbers below -200 instead of -ln 2) for wide spreads (0 and -512) and for 300 entries (zeros; log of every number from 300 on is at most -1000). Fixed-point rounding: see C80. Missing: 151 to 299 entries."
  },
  {
   "property": "C62",
   "status": "partial",
   "theorems": [
    "C62_gradient_partial",
    "C62_fixed_partial",
    "C62_batch_fails",
    "C62_batch_refuted",
    "C62_kernel_fails",
    "C62_kernel_refuted",
    "C62_padding_shape",
    "C62_padding_refuted",
    "C62_rows_refuted"
   ],
   "note": "Proved for one image, one channel, any number of square kernels, any stride and dilation, no padding, every row and column of the image used. REFUTED otherwise: several images or channels and kernels that are not square always make backward fail, with padding (or unused rows) the gradient of the input has the wrong shape. Groups need several channels, so they always fail."
  },
  {
   "property": "C63",
   "status": "proved",
   "theorems": [
    "C63_rounding",
    "C63_ties",
    "C63_encode",
    "C63_decode",
    "C63_round_trip",
    "C63_round_trip_refuted",
    "C63_precision_refuted",
    "C63_base10_refuted"
   ],
   "note": "Float32 is modelled as exact rationals rounded to 24 bits (M_Float); overflow and subnormals are not modelled. The refutations show that the limits in the statement are needed."
  },
  {
   "property": "C64",
   "status": "proved",
   "theorems": [
    "C64_sigmoid",
    "C64_tanh",
    "C64_gradient",
    "C64_sigmoid_refuted",
    "C64_maclaurin",
    "C64_maclaurin_refuted",
    "C64_aliter",
    "C64_aliter_refuted"
   ],
   "note": "Real-number semantics: the operators of the engine without fixed-point rounding. The refutations show that the limits in the statement are needed."
  },
  {
   "property": "C65",
   "status": "proved",
   "theorems": [
    "C65_division",
    "C65_public_numerator",
    "C65_parties",
    "C65_gradient",
    "C65_zero",
    "C65_small_refuted",
    "C65_large_refuted"
   ],
   "note": "Real-number semantics: the operators of the engine without fixed-point rounding (C65_parties holds for every engine). The refutations show that the limits in the statement are needed."
  },
  {
   "property": "C66",
   "status": "partial",
   "theorems": [
    "C66_methods",
    "C66_numel",
    "C66_sum",
    "C66_sum_rings_partial",
    "C66_sum_unreduced_refuted",
    "C66_sum_bits_refuted",
    "C66_sum_prime_refuted",
    "C66_missing_refuted"
   ],
   "note": "t, T (two dimensions), unsqueeze, view, clone, repeat along the first dimension and numel: proved in every ring. sum: proved in the ring 2^64; in 2^8, 2^16, 2^32 up to multiples of the ring (REFUTED that the result is reduced); REFUTED for bits and modulo 67. REFUTED for squeeze, flatten, reshape, narrow, transpose, which raise AttributeError."
  },
  {
   "property": "C67",
   "status": "partial",
   "theorems": [
    "C67_division_partial",
    "C67_two_parties_partial",
    "C67_shift_partial",
    "C67_shift_range",
    "C67_division_refuted",
    "C67_parties_refuted"
   ],
   "note": "Proved with the sum of the shares in the integers in place of the shared value (the two are equal unless the sum wraps). REFUTED for sharings that wrap, and REFUTED that MPCTensors of more than two parties can be divided (AttributeError)."
  },
  {
   "property": "C68",
   "status": "partial",
   "theorems": [
    "C68_equal",
    "C68_items",
    "C68_broadcast_refuted",
    "C68_reflexive_refuted",
    "C68_transitive_refuted"
   ],
   "note": "Proved for objects with the same number of shares of one shape with at least one dimension. REFUTED otherwise: numbers of shares that broadcast, shares without dimensions (RuntimeError); transitivity is refuted by objects without session."
  },
  {
   "property": "C69",
   "status": "proved",
   "theorems": [
    "C69_sign",
    "C69_relu",
    "C69_modulus",
    "C69_hardtanh",
    "C69_carry",
    "C69_relu_refuted"
   ],
   "note": "Whether shares wrap is observed by an instrumented copy of the engine (S_Fixed.v), proved to compute the same results. C69_relu_refuted exhibits valid triples whose shares wrap."
  },
  {
   "property": "C70",
   "status": "proved",
   "theorems": [
    "C70_exp_negative",
    "C70_exp_positive",
    "C70_reciprocal",
    "C70_division",
    "C70_public_numerator",
    "C70_sigmoid",
    "C70_tanh",
    "C70_range_refuted",
    "C70_carry_refuted"
   ],
   "note": "The whole protocol stack below the algorithms (SPDZ products, local truncation, FSS comparison, encoder) is that of the model; uses the standard library's axioms of the reals. The refutations show that the limits are needed."
  },
  {
   "property": "C71",
   "status": "proved",
   "theorems": [
    "C71_interpolation",
    "C71_odd",
    "C71_tanh_nodes"
   ],
   "note": "chebyshev_series over the real numbers (cos and PI of the standard library, exact arithmetic). C71_tanh_nodes takes the public coefficients as an argument, within d of the exact ones."
  },
  {
   "property": "C72",
   "status": "partial",
   "theorems": [
    "C72_sums",
    "C72_products",
    "C72_matrices",
    "C72_order",
    "C72_division",
    "C72_division_zero",
    "C72_methods",
    "C72_decode",
    "C72_xor",
    "C72_widths",
    "C72_foreign",
    "C72_config_refuted",
    "C72_ring_refuted",
    "C72_xor_refuted"
   ],
   "note": "Sums, differences, products, matrix products (matrices of two dimensions) and comparisons: proved for the rings 2^8 to 2^64, every configuration with base at least 1 (products: scale below half the ring), every broadcastable shape. REFUTED: methods and div forget the ring size, objects of different configurations are added without rescaling, xor with a public value raises without a session and accepts objects of different sessions."
  },
  {
   "property": "C73",
   "status": "partial",
   "theorems": [
    "C73_copy",
    "C73_fresh_partial",
    "C73_party_type",
    "C73_protocols",
    "C73_ring_refuted",
    "C73_other_refuted"
   ],
   "note": "Everything but the consistency is proved for all sessions. REFUTED: copies, hence the sessions of the parties, have the tensor type and bounds of 2^64 whatever their ring; comparing a protocol with an object without security_type raises AttributeError."
  },
  {
   "property": "C74",
   "status": "partial",
   "theorems": [
    "C74_classes",
    "C74_recording_partial",
    "C74_calls",
    "C74_reflected_refuted",
    "C74_relu_refuted",
    "C74_dim_refuted"
   ],
   "note": "Class creation: proved for all classes. Recording: proved for + - * @ / ** and reflected + and *. REFUTED: reflected -, @, / and -= are not recorded, x.relu and x.max_pool2d exist only while autograd is active, x.dim() raises."
  },
  {
   "property": "C75",
   "status": "partial",
   "theorems": [
    "C75_comparison_private",
    "C75_nothing_else",
    "C75_orchestrator_refuted"
   ],
   "note": "For the two evaluating parties: proved (the security of the sycret keys themselves is outside the model: a party's key is taken to reveal its own mask share only). REFUTED for the orchestrator: it reconstructs all 64 bits of the difference masked with 32-bit masks, so the upper bits of the difference are visible (fss.py:163 has a TODO about this reconstruction)."
  },
  {
   "property": "C76",
   "status": "partial",
   "theorems": [
    "C76_division_private",
    "C76_nothing_else",
    "C76_theta_wraps",
    "C76_sign_refuted"
   ],
   "note": "Everything up to the opening of theta: proved for any number of parties. REFUTED for theta: it is opened in plaintext and is the number of wraps of the secret's shares, so all but one party can read the sign of the secret from it."
  },
  {
   "property": "C77",
   "status": "partial",
   "theorems": [
    "C77_sharing_private",
    "C77_product_private",
    "C77_orchestrator_refuted"
   ],
   "note": "For a single party: proved for sharings and for products and matrix products before truncation, with draws over the whole ring (see C78 for the draws of the code); what the malicious verification opens and the truncation: see C84. REFUTED for the orchestrator: it fetches all three masked local products, which add up to the product (falcon.py:172-173)."
  },
  {
   "property": "C78",
   "status": "partial",
   "theorems": [
    "C78_last_party",
    "C78_sharing_partial",
    "C78_sharing_refuted",
    "C78_product_reveals",
    "C78_product_refuted"
   ],
   "note": "REFUTED: the other shares of secrets 0 and -1 can be told apart with a chance of one in 2^63 only, but the product's triple share c - r_c excludes the neighbouring secret in nearly half of all runs of a two-party multiplication. Proved: without the last share nothing is revealed; otherwise all draws that can be moved by the difference of the secrets correspond."
  },
  {
   "property": "C79",
   "status": "partial",
   "theorems": [
    "C79_softmax_partial",
    "C79_single",
    "C79_softmax_refuted"
   ],
   "note": "Proved for 2 to 48 entries from -249 to 249 whose largest one occurs once at each position, when no shares carry; one entry: proved exactly, for any number of parties. REFUTED for repeated largest entries (20 and 20 both get 0) and wide spreads (0 and -600). Replicated sessions: always raises, see C81. Missing: more entries, an error bound that does not grow with n."
  },
  {
   "property": "C80",
   "status": "partial",
   "theorems": [
    "C80_log",
    "C80_reciprocal",
    "C80_log_softmax_partial",
    "C80_log_refuted"
   ],
   "note": "log and the reciprocal: proved as stated. log_softmax: proved for lines whose largest entry occurs once at each position, when no shares carry. REFUTED for repeated largest entries (20 and 20 give -11.8 twice); log is far off for larger arguments (300). Replicated sessions: always raise, see C81. Missing: more entries."
  },
  {
   "property": "C81",
   "status": "partial",
   "theorems": [
    "C81_sharing",
    "C81_no_aby3_sharing",
    "C81_aby3_sharing_refuted",
    "C81_comparisons",
    "C81_functions",
    "C81_maclaurin_witness",
    "C81_power"
   ],
   "note": "Proved except for one point. REFUTED: in an ABY3 session no secret of the orchestrator can be shared, because the class ABY3 has no distribute_shares (AttributeError); sharing is proved for Falcon sessions on the ring 2^64. What does return is right: powers as the engine runs them (C81_power)."
  },
  {
   "property": "C82",
   "status": "partial",
   "theorems": [
    "C82_secret",
    "C82_sum_partial",
    "C82_sum_refuted",
    "C82_honest_refuted",
    "C82_malicious_sum_refuted",
    "C82_prime",
    "C82_prime_refuted",
    "C82_bits"
   ],
   "note": "Secrets: proved for 2^8, 2^16, 2^32 and 2^64, both security modes, any number of parties. Sums: proved when the draws of the operands add within the lower half of the ring (for 2^64 see C18). REFUTED for smaller rings: the sum can be off by the ring size, and a malicious session can reject an honest sum. REFUTED for 67 (a shared secret never reconstructs: ValueError) and 2 (nothing can be shared: RuntimeError)."
  },
  {
   "property": "C83",
   "status": "partial",
   "theorems": [
    "C83_linear_exact",
    "C83_linear_scaled",
    "C83_conv_fails",
    "C83_conv_refuted",
    "C83_sum_exact",
    "C83_sum_scaled",
    "C83_mean_fails",
    "C83_mean_refuted",
    "C83_step_partial",
    "C83_zero_dim_refuted",
    "C83_missing_gradient_refuted",
    "C83_step_parties"
   ],
   "note": "Linear: proved, inputs of any shape; with scaling one unit per product where the shares do not carry. Sum of squares: proved for at least one dimension, with scaling up to two units per element. SGD: proved for distinct parameters of at least one dimension with a gradient of their shape. REFUTED: Conv2d always raises; mse_loss with its default reduction mean always raises, for any number of parties; a parameter without dimensions ends up with shares of shape [1]; a parameter without gradient leaves the earlier ones moved and AUTOGRAD_IS_ON off; with any other number of parties than three no step succeeds."
  },
  {
   "property": "C84",
   "status": "partial",
   "theorems": [
    "C84_truncated_private",
    "C84_verified_private",
    "C84_run_is_product",
    "C84_orchestrator_learns_operands",
    "C84_orchestrator_refuted"
   ],
   "note": "For a single party: proved, in the ring 2^64, with draws over the whole ring (see C78 for the draws of the code); malicious sessions with at least one entry (with none the generation of the triple raises). REFUTED for the orchestrator: in a malicious session it fetches the shares of the triple and the opened differences, whose sum is the operands, for all inputs."
  },
  {
   "property": "C85",
   "status": "proved",
   "theorems": [
    "C85_assigned",
    "C85_read_again",
    "C85_same_encoder"
   ],
   "note": "Precisions that are not negative; elements as in C01 (float32 rounding not modelled)."
  },
  {
   "property": "C86",
   "status": "proved",
   "theorems": [
    "C86_last_set"
   ],
   "note": "Identifiers are numbers; str of a UUID is injective."
  },
  {
   "property": "C87",
   "status": "partial",
   "theorems": [
    "C87_fixed_programs_partial",
    "C87_carry_refuted"
   ],
   "note": "All programs of the listed operators, any number of parties, base and precision, inputs known up to any error, given valid triples. The bound holds for runs in which every rescaling and division is accurate (two parties: the shares of the divided tensor add up without wrapping; more parties: base 2, masks that do not wrap, see C14). REFUTED without that (C87_carry_refuted: 0 / 4 gives -2^46). Not covered: public minus shared for tensors without dimensions, public operands that enlarge the shape of a sum, the float32 rounding of public floats beyond one unit, comparisons and approximations (C42, C69, C70)."
  },
  {
   "property": "C88",
   "status": "partial",
   "theorems": [
    "C88_operators_partial",
    "C88_create",
    "C88_list_operators",
    "C88_list_methods",
    "C88_list_refuted",
    "C88_override_refuted",
    "C88_no_shape"
   ],
   "note": "Additive sessions. Proved for tensors created without the parameter, or with a tuple or torch.Size that is the shape of the secret: sums, differences, shape methods, len, and products in integer sessions (in fixed point the same products as in C10-C16, C87). REFUTED: a tensor created with a list, as documented, raises TypeError (unhashable list) in every operator, after the primitives were used, while its methods work; a wrong shape is believed and handed on. Products with public values and replicated sessions compute the attribute in the same way and are not repeated here."
  },
  {
   "property": "C89",
   "status": "partial",
   "theorems": [
    "C89_replicated_partial",
    "C89_carry_refuted"
   ],
   "note": "All programs of the listed operators in the ring 2^64, both security modes, any base and precision, inputs known up to any error, given zero shares (and triples) that fit. The bound holds for runs in which the shares of no product carry when they are truncated. REFUTED without that condition: 1 times the public number 1 can come out 2^32 too small. A public matrix on the left of @ is refused (C49_public_left_refuted)."
  },
  {
   "property": "C90",
   "status": "partial",
   "theorems": [
    "C90_roundtrip_partial",
    "C90_attributes",
    "C90_small_ring_refuted"
   ],
   "note": "REFUTED as stated: 1 is kept as 0 in the rings 2^8 and 2^16 with the default configuration, -1 in the prime field is read as 255. Proved for every value the ring can hold; the ring size and configuration always survive get_ring_size and get_config."
  }
 ]
}