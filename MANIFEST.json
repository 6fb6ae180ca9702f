{
 "claims": [
  {
   "property": "C01",
   "status": "proved",
   "theorems": [
    "linear_recurrence_correct",
    "linear_recurrence_empty",
    "linear_recurrence_unroll_error"
   ],
   "note": "Complete for N >= 1; the empty signal raises (second theorem)."
  },
  {
   "property": "C02",
   "status": "proved",
   "theorems": [
    "lpv_linear_recurrence_correct",
    "lpv_linear_recurrence_unroll_error",
    "lpv_linear_recurrence_length_error"
   ],
   "note": "All rings, sizes, unroll factors, shared (N) and batched (B,N) trajectories, scalar/one/per-batch init."
  },
  {
   "property": "C03",
   "status": "proved",
   "theorems": [
    "state_space_recursion_correct"
   ],
   "note": "All shapes, unroll factors and output indices, on every consistently installed back-end (the exception is C09)."
  },
  {
   "property": "C04",
   "status": "partial",
   "theorems": [
    "lpv_state_space_recursion_partial",
    "lpv_default_unroll_good",
    "lpv_state_space_recursion_refuted",
    "C04_unroll_factors",
    "C04_unroll_commuting"
   ],
   "note": "False in general: with unroll factor 5 (any composite factor minus one) the Python path multiplies the block matrices in the wrong order. Proved exactly when it holds: for order >= 2 it holds on all inputs iff the factor is 1, 2, at least N, or a prime plus one (so the README's 16 is wrong and 8 is right); for commuting trajectories (order 1, constant A) iff the factor minus one is not a product of three numbers >= 2. The default factor is right for lengths up to 20. Partial because the property as stated is refuted for the other factors."
  },
  {
   "property": "C05",
   "status": "partial",
   "theorems": [
    "matrices_cumdot_refuted",
    "matrices_cumdot_scalar_refuted",
    "matrices_cumdot_partial",
    "C05_lengths",
    "C05_commuting",
    "C05_composite_position"
   ],
   "note": "The claim is false for composite lengths. Proved exactly when it holds: for sizes >= 2 over any ring with 1 <> 0 it holds on all inputs iff the length is 1 or prime; for pairwise commuting matrices (1x1 in particular) iff the length is not a product of three numbers >= 2; for a composite length some divisor p has A_p (A_0 ... A_(p-1)) at position p on every input. Partial because the property as stated is refuted for the other lengths."
  },
  {
   "property": "C06",
   "status": "proved",
   "theorems": [
    "matrix_power_accumulate_correct",
    "matrix_power_accumulate_zero",
    "matrix_power_accumulate_neg"
   ],
   "note": "All batch shapes, sizes and exponents; negative exponents relative to the matrix torch.linalg.inv returns."
  },
  {
   "property": "C07",
   "status": "proved",
   "theorems": [
    "cpu_lti_recurN_correct",
    "cpu_recurN_correct",
    "cpu_lti_recur_correct",
    "kernel_schedule_correct",
    "kernel_schedule_sequential",
    "kernel_schedule_scalar",
    "kernel_schedule_progress"
   ],
   "note": "All sizes and data; schedules interleave the workers at the granularity of single memory reads and writes."
  },
  {
   "property": "C08",
   "status": "proved",
   "theorems": [
    "scan_operators_associative",
    "cuda_lti_recur_correct",
    "cuda_lti_recur2_correct",
    "cuda_recur2_correct",
    "host_recur2_scan_correct",
    "host_recurN_scan_correct",
    "helion_kernels_correct"
   ],
   "note": "Every parenthesisation per output; CUDA scan-by-key and the host scans; also the Helion kernels for every tile size."
  },
  {
   "property": "C09",
   "status": "partial",
   "theorems": [
    "state_space_recursion_backends_partial",
    "state_space_backends_partial",
    "helion_without_extension_refuted"
   ],
   "note": "Equal results on all consistently installed back-ends; false when Helion is loaded without the C++ extension (AttributeError for orders 1 and 2)."
  },
  {
   "property": "C10",
   "status": "partial",
   "theorems": [
    "lpv_state_space_recursion_backends_partial",
    "lpv_state_space_backends_partial",
    "pararnn_without_extension_refuted",
    "lpv_helion_without_extension_refuted"
   ],
   "note": "Equal results on all consistently installed back-ends under the unroll condition of C04; false when ParaRNN or Helion is present without the C++ extension (AssertionError / AttributeError, proved for all inputs)."
  },
  {
   "property": "C11",
   "status": "proved",
   "theorems": [
    "state_space_correct"
   ],
   "note": "All shape combinations listed in Shapes.v; the size side conditions there are necessary (C12)."
  },
  {
   "property": "C12",
   "status": "partial",
   "theorems": [
    "state_space_B_dispatch_refuted",
    "state_space_C_dispatch_refuted",
    "state_space_correct"
   ],
   "note": "Holds when the sizes do not coincide (C11); refuted for batch = M = F and for P = batch."
  },
  {
   "property": "C13",
   "status": "partial",
   "theorems": [
    "lpv_state_space_partial"
   ],
   "note": "All shape combinations listed in Shapes.v and all back-ends; the unroll factor is restricted as in C04 because the claim is false otherwise."
  },
  {
   "property": "C14",
   "status": "partial",
   "theorems": [
    "lpv_C_dispatch_refuted",
    "lpv_B_dispatch_refuted",
    "lpv_state_space_partial"
   ],
   "note": "Refuted for batch = length: (batch,N,M) output matrices and (batch,M) input matrices are read as time-varying; holds when the sizes differ (C13)."
  },
  {
   "property": "C15",
   "status": "partial",
   "theorems": [
    "state_space_streaming",
    "lpv_state_space_streaming_partial",
    "lfilter_state",
    "lfilter_streaming",
    "fir_streaming_partial",
    "fir_transposed_streaming_partial",
    "fir_short_signal_refuted",
    "comb_filter_streaming_partial",
    "lpv_fir_streaming",
    "lpv_fir_transposed_streaming_partial",
    "lpv_allpole_streaming_partial",
    "lpv_lfilter_streaming_partial",
    "lpv_lfilter_tdf2_streaming_partial",
    "lpv_fir_short_refuted"
   ],
   "note": "Proved for lti.state_space, lpv.state_space (unroll factors as in C04), lti.lfilter (df2 and tdf2, all orders >= 1), lti.fir (two or more taps; transposed form: blocks at least as long as the order, false otherwise), comb_filter (first block at least as long as the delay), lpv.fir (direct form: all; transposed: chunks at least as long as the order), lpv.allpole (chunks at least as long as the order), lpv.lfilter df2 and tdf2."
  },
  {
   "property": "C16",
   "status": "partial",
   "theorems": [
    "state_space_batch_independent",
    "lfilter_batch_independent",
    "C16_lfilter_state",
    "C16_lpv_state_space_any_factor",
    "C16_C17_lpv_lfilter_any_factor",
    "C16_C17_lpv_lfilter_torchlpc",
    "C16_C17_linear_recurrence",
    "C16_C17_lpv_linear_recurrence",
    "C16_C17_fir",
    "C16_C17_lpv_fir",
    "C16_C17_lpv_allpole",
    "C16_C17_comb_filter",
    "C16_filtfilt",
    "C16_C17_diag_state_space",
    "C16_cubic_coeff",
    "C16_cubic_spline",
    "C16_square_refuted",
    "lpv_B_dispatch_refuted"
   ],
   "note": "Proved for lti.state_space, lpv.state_space (every unroll factor >= 1, whether or not its result is right), both linear_recurrence, lti.lfilter (output and final state), lpv.lfilter (every form, both back-ends, every unroll factor; per-batch df2/tdf2 coefficients: batch <> length), both fir, lpv.allpole, comb_filter, filtfilt (same coefficient tensors), diag_state_space (where C33 holds), cubic_coeff and cubic_spline.  False for lpv.state_space when batch = length: a documented (batch, M) input matrix is read along time, so row 0 of the result depends on row 1 of B (counterexample)."
  },
  {
   "property": "C17",
   "status": "proved",
   "theorems": [
    "state_space_causal",
    "lfilter_causal",
    "C17_lpv_state_space_any_factor",
    "C16_C17_lpv_lfilter_any_factor",
    "C16_C17_lpv_lfilter_torchlpc",
    "C16_C17_linear_recurrence",
    "C16_C17_lpv_linear_recurrence",
    "C16_C17_fir",
    "C16_C17_lpv_fir",
    "C16_C17_lpv_allpole",
    "C16_C17_comb_filter",
    "C16_C17_diag_state_space"
   ],
   "note": "lti.state_space (every unroll factor), both linear_recurrence, lti.lfilter (every form); also lpv.state_space (every unroll factor >= 1, even those whose result is wrong), lpv.lfilter (every form, both back-ends, every unroll factor; per-batch df2/tdf2 coefficients only for batch <> length), both fir, lpv.allpole, comb_filter and diag_state_space (where C33 holds)."
  },
  {
   "property": "C18",
   "status": "proved",
   "theorems": [
    "state_space_linear",
    "lfilter_linear",
    "C18_lfilter",
    "C18_lpv_state_space_any_factor",
    "C18_lpv_lfilter_any_factor",
    "C18_lpv_lfilter_torchlpc",
    "C18_linear_recurrence",
    "C18_lpv_linear_recurrence",
    "C18_fir",
    "C18_lpv_fir",
    "C18_lpv_allpole",
    "C18_comb_filter",
    "C18_filtfilt",
    "C18_diag_state_space",
    "C18_cubic_coeff",
    "C18_cubic_spline"
   ],
   "note": "lti.state_space and lti.lfilter (every form, with or without initial state, final states too), both linear_recurrence; also lpv.state_space and lpv.lfilter (both back-ends, every unroll factor >= 1; per-batch df2/tdf2 coefficients only for batch <> length), both fir, lpv.allpole, comb_filter, filtfilt, diag_state_space (where C33 holds), cubic_coeff and cubic_spline."
  },
  {
   "property": "C19",
   "status": "partial",
   "theorems": [
    "lfilter_difference_equation_partial",
    "lfilter_difference_equation_complex",
    "lfilter_order_zero_refuted"
   ],
   "note": "Proved for real coefficients of order >= 1, all four forms; false at order zero in direct form I (counterexample) and for complex coefficients (the second theorem gives the equation each form really solves)."
  },
  {
   "property": "C20",
   "status": "partial",
   "theorems": [
    "lfilter_forms_agree_partial",
    "lfilter_forms_agree_refuted"
   ],
   "note": "Forms agree for real coefficients; false for complex ones (counterexample)."
  },
  {
   "property": "C21",
   "status": "partial",
   "theorems": [
    "fir_convolution",
    "fir_state_partial",
    "fir_transposed_partial",
    "fir_transposed_state_partial",
    "fir_forms_agree_partial",
    "fir_one_tap_refuted",
    "fir_short_signal_refuted"
   ],
   "note": "Proved for two or more taps (direct form without state: any) and, for the transposed form with state, signals at least as long as the order; counterexamples outside."
  },
  {
   "property": "C22",
   "status": "partial",
   "theorems": [
    "lpv_fir_convolution",
    "lpv_fir_state",
    "lpv_fir_transposed_partial",
    "lpv_fir_transposed_state_partial",
    "lpv_fir_one_tap_refuted",
    "lpv_fir_short_refuted",
    "lpv_fir_transposed_complex_refuted",
    "lpv_fir_streaming",
    "lpv_fir_transposed_streaming_partial"
   ],
   "note": "Direct form: every tap count and length.  Transposed form: two or more taps, real taps, and with state a signal at least as long as the order; counterexamples outside."
  },
  {
   "property": "C23",
   "status": "partial",
   "theorems": [
    "lpv_allpole_equation",
    "lpv_allpole_state_partial",
    "lpv_allpole_transposed_partial",
    "lpv_allpole_transposed_state_partial",
    "lpv_allpole_short_refuted",
    "lpv_fir_allpole_inverse",
    "lpv_fir_allpole_transposed_inverse_partial"
   ],
   "note": "Direct form: every order and length (torchlpc by contract); transposed form: orders 1 to the length, counterexample for shorter signals."
  },
  {
   "property": "C24",
   "status": "partial",
   "theorems": [
    "lpv_lfilter_df2_partial",
    "lpv_lfilter_tdf2_partial",
    "lpv_lfilter_df1_partial",
    "lpv_lfilter_tdf1_torchlpc_partial",
    "lpv_lfilter_tdf1_ssm_partial",
    "lpv_backends_agree_df2_partial",
    "lpv_backends_agree_df1_partial",
    "lpv_backends_agree_tdf1_partial",
    "lpv_backends_agree_tdf1_refuted",
    "lpv_backends_agree_square_refuted",
    "lpv_lfilter_tdf2_torchlpc_refuted",
    "C24_lfilter_factor5_refuted"
   ],
   "note": "df1, df2, tdf2 implement their structures and the back-ends agree on df1 and df2 (unroll factors as in C04; df2/tdf2: shared coefficients or batch <> length).  tdf1: the state-space back-end uses the feedback coefficients one sample late, so the back-ends disagree (counterexample); torchlpc has no tdf2."
  },
  {
   "property": "C25",
   "status": "partial",
   "theorems": [
    "diag_shift_partial",
    "diag_shift_full",
    "diag_shift_refuted"
   ],
   "note": "All sizes except a single column with offset 0, where all rows are dropped (counterexample)."
  },
  {
   "property": "C26",
   "status": "partial",
   "theorems": [
    "lfiltic_continues_partial",
    "lfiltic_one_tap_refuted"
   ],
   "note": "Proved for real coefficients and orders >= 1 on both sides; a single feed-forward tap raises (counterexample)."
  },
  {
   "property": "C27",
   "status": "partial",
   "theorems": [
    "lfilter_zi_steady_partial",
    "lfilter_zi_df2_refuted",
    "lfilter_zi_tdf2_complex_refuted"
   ],
   "note": "Proved for real coefficients (tdf2) and for numerators not longer than the denominator (df2); false otherwise (counterexamples)."
  },
  {
   "property": "C28",
   "status": "partial",
   "theorems": [
    "filtfilt_partial",
    "filtfilt_no_state",
    "filtfilt_df1_refuted",
    "filtfilt_long_numerator_refuted"
   ],
   "note": "Shape, value and constants for df2/tdf2 under the conditions of C27; any back-end that returns no state makes filtfilt raise (df1/tdf1 always), and df2 raises for long numerators (counterexamples)."
  },
  {
   "property": "C29",
   "status": "partial",
   "theorems": [
    "comb_filter_partial",
    "comb_filter_delay_one_partial",
    "comb_filter_streaming_partial",
    "comb_filter_no_extension_refuted",
    "comb_filter_refuted"
   ],
   "note": "Proved with the compiled extension (delay >= 2) and for delay 1; always raises AttributeError without the extension for delay >= 2; false for the state at delay 1 and for signals shorter than the delay."
  },
  {
   "property": "C30",
   "status": "partial",
   "theorems": [
    "C30_polydiv",
    "C30_polydiv_value",
    "C30_short_dividend_raises",
    "C30_short_dividend_refuted"
   ],
   "note": "Proved for dividends at least as long as the divisor; a shorter dividend raises (counterexample)."
  },
  {
   "property": "C31",
   "status": "proved",
   "theorems": [
    "companion_vandermonde",
    "vandermonde_batched_refuted"
   ],
   "note": "Proved for 1-D coefficient and pole vectors; batched poles raise in torch.vander, shown by the second theorem."
  },
  {
   "property": "C32",
   "status": "partial",
   "theorems": [
    "C32_result_diagonalises",
    "C32_find_eigenvectors_sound",
    "C32_find_eigenvectors_total",
    "C32_companion_nonzero",
    "C32_companion_transposed",
    "C32_zero_first_component_wrong",
    "C32_companion_zero_pole_wrong",
    "C32_companion_refuted"
   ],
   "note": "Proved for all fields, batch shapes, orders and eigenvalues (repeated ones too) under the stated contracts of solve and vector_norm; for companion matrices it holds exactly when 0 is not a pole, and fails otherwise (counterexample)."
  },
  {
   "property": "C33",
   "status": "partial",
   "theorems": [
    "C33_diag_state_space",
    "C33_equals_state_space",
    "C33_real_system",
    "C33_complex_system_real_C_refuted",
    "C33_batched_eigenvalues_with_A_raise"
   ],
   "note": "All documented shapes and ways to give the diagonalisation; with a real C and a complex system the imaginary part is dropped, and per-batch L together with A is rejected (counterexamples)."
  },
  {
   "property": "C34",
   "status": "partial",
   "theorems": [
    "C34_short_numerator",
    "C34_long_numerator",
    "C34_long_numerator_ignores_zi",
    "C34_long_numerator_loses_state",
    "C34_long_shared_numerator_raises",
    "C34_delayed_form_short_signal_raises",
    "C34_complex_df2_refuted",
    "C34_complex_signal_refuted",
    "C34_zero_pole_df2_refuted"
   ],
   "note": "Proved for 2-D x, df2 and tdf2, distinct eigenvalues: up to one more numerator than denominator coefficient the output and final state equal those of backend='ssm' (any zi, plain and delayed form); for longer numerators the output from rest equals it when b is 2-D, b and a are real in df2, a's last coefficient is nonzero (df2 or plain form) and the signal is at least as long as the delay. Refuted otherwise: zi is ignored and no final state returned for longer numerators, a 1-D b raises AssertionError there, the delayed form raises on shorter signals, fir conjugates the quotient of complex filters, df2 with real coefficients drops the imaginary part of a complex signal, a zero pole breaks df2. torch.linalg is abstract (linalg_ok); 1-D x is not covered."
  },
  {
   "property": "C35",
   "status": "proved",
   "theorems": [
    "C35_LTIRecurrence_jvp_exact",
    "C35_LTIMatrixRecurrence_jvp_exact",
    "C35_MatrixRecurrence_jvp_exact"
   ],
   "note": "Each jvp returns the eps part of the forward function run on dual numbers, for all rings, sizes (also empty signals), shared or batched coefficients and any subset of missing tangents."
  },
  {
   "property": "C36",
   "status": "partial",
   "theorems": [
    "C36_LTIRecurrence_backward_adjoint",
    "C36_LTIMatrixRecurrence_backward_adjoint",
    "C36_MatrixRecurrence_backward_adjoint",
    "C36_lti_recur_registered_adjoint",
    "C36_lti_registered_adjoint",
    "C36_lpv_registered_adjoint",
    "C36_empty_LTIRecurrence_raises",
    "C36_empty_LTIMatrixRecurrence_raises",
    "C36_empty_MatrixRecurrence_raises",
    "C36_helion_order2_refuted"
   ],
   "note": "Holds for every signal of at least one sample, every needs_input_grad, shared or batched coefficients (a coefficient of shape [1] after the engine's reduction). On empty signals the backward rules raise IndexError (scalar: always; matrix: when the initial state needs a gradient), and the Helion operator at order 2 without the extension has no working backward."
  },
  {
   "property": "C37",
   "status": "partial",
   "theorems": [
    "C37_lti_recur_fake",
    "C37_lti_recurN_fake",
    "C37_lti_recur2_fake",
    "C37_recurN_fake",
    "C37_recur2_fake",
    "C37_hl_fake",
    "C37_fake_lti_complete",
    "C37_fake_lpv_complete",
    "C37_batch_refuted",
    "C37_time_refuted",
    "C37_order_refuted",
    "C37_order_lpv_refuted"
   ],
   "note": "Holds unconditionally for lti_recur, and for the matrix operators when A has the batch (and time) size of x and order 2 for the second-order ones; the kernels do not check these sizes, so they accept calls their fake kernels reject (counterexamples). Conversely fake acceptance with 3-D x and 2-D zi implies acceptance with that shape."
  },
  {
   "property": "C38",
   "status": "proved",
   "theorems": [
    "C38_cspline_interpolates",
    "C38_cspline_smoothing",
    "C38_left_refuted"
   ],
   "note": "All fields with 6 <> 0, all roots of r^2+4r+1, lengths, both forms (the cascade needs two samples) and paddings; the exact residual at the left end is proved and shown non-zero."
  },
  {
   "property": "C39",
   "status": "partial",
   "theorems": [
    "C39_cubic_spline_partial",
    "C39_cubic_spline_m1",
    "C39_m49_refuted",
    "C39_short_refuted",
    "C39_grid_ok"
   ],
   "note": "Proved for every m whose kernel grid has 4m points (all m up to 48) and signals of at least 2 (scipy) or 3 (reflect) samples; m = 49 and shorter signals raise (counterexamples)."
  },
  {
   "property": "C40",
   "status": "proved",
   "theorems": [
    "C40_causal",
    "C40_iterations",
    "C40_affine",
    "C40_exact_exit",
    "C40_zero_iterations",
    "C40_max_iter_bound"
   ],
   "note": "All functions acting sample by sample, all lengths, iteration counts 1..L-1, first guesses, back-ends; unroll factors as in C04."
  },
  {
   "property": "C41",
   "status": "partial",
   "theorems": [
    "C41_chain_composes",
    "C41_chain_app",
    "C41_chain_one",
    "C41_chain_empty",
    "C41_chain_empty_refuted"
   ],
   "note": "Composition proved for non-empty lists; the empty list gives a one-element tuple, not the identity (counterexample)."
  },
  {
   "property": "C42",
   "status": "partial",
   "theorems": [
    "C42_trim_zeros",
    "C42_polymul",
    "C42_polysmul",
    "C42_polysmul_empty",
    "C42_polyadd",
    "C42_polysub",
    "C42_polyval",
    "C42_polyval_shape_refuted",
    "C42_polyval_mul",
    "C42_polyder",
    "C42_polyder_neg",
    "C42_polydiv",
    "C42_polydiv_exact",
    "C42_roots",
    "C42_roots_monomial_raises",
    "C42_roots_refuted"
   ],
   "note": "All operations, all rings and degrees; the shape of polyval for constants and the roots of monomials are wrong (counterexamples)."
  },
  {
   "property": "C43",
   "status": "proved",
   "theorems": [
    "fibonacci_correct"
   ],
   "note": "Every length, unroll factor and consistent back-end."
  },
  {
   "property": "C44",
   "status": "partial",
   "theorems": [
    "offsets_in_range",
    "offsets_wrap",
    "offsets_refuted"
   ],
   "note": "Offsets are right for buffers of at most 2^31 elements and wrong beyond (counterexample); in general every product of the offset is reduced to the 32-bit value congruent to it (offsets_wrap)."
  },
  {
   "property": "C45",
   "status": "partial",
   "theorems": [
    "linear_recurrence_unroll_error",
    "state_space_recursion_unroll_zero",
    "state_space_unroll_error",
    "state_space_C_and_out_idx_error",
    "state_space_batch_error",
    "lpv_unroll_zero_error",
    "lpv_length_error",
    "lpv_C_and_out_idx_error",
    "lfilter_rank_error",
    "lfilter_form_error",
    "lpv_lfilter_rank_error",
    "lpv_lfilter_backend_error",
    "lpv_lfilter_form_error",
    "C45_fir_args",
    "C45_lpv_fir_args",
    "C45_lpv_allpole_args",
    "C45_comb_filter_args",
    "C45_comb_filter_delay_zero",
    "C45_linear_recurrence_args",
    "C45_filtfilt_args",
    "C45_lfiltic_args",
    "C45_diag_args",
    "C45_lfilter_batch_mismatch_raises",
    "C45_lfilter_batch_mismatch_refuted",
    "C45_lpv_batch_raises",
    "C45_lpv_batch_refuted",
    "C45_comb_filter_zi_refuted"
   ],
   "note": "Unroll factors, C with out_idx, unknown forms and back-ends, ranks and the argument shapes of every public function.  'Mismatched batch sizes raise' is refuted: lti.lfilter in form df2 with a batch of b returns a bank of shape (B, N, P), lpv.state_space called with unroll_factor 1 and the extension uses the first matrices only, comb_filter does not check zi.  All other mismatches of these functions raise."
  },
  {
   "property": "C46",
   "status": "partial",
   "theorems": [
    "lfilter_unbatched",
    "lfilter_unbatched_values",
    "lfilter_not_squeezed",
    "filtfilt_unbatched_partial",
    "lpv_lfilter_unbatched",
    "lpv_lfilter_unbatched_values_partial"
   ],
   "note": "lfilter for every back-end (lti and lpv); filtfilt under the conditions of C28."
  },
  {
   "property": "C47",
   "status": "partial",
   "theorems": [
    "C47_intermediates",
    "C47_intermediates_refuted"
   ],
   "note": "False: the j-th intermediate has j+2 samples, the last repeated (exact description proved, counterexample)."
  },
  {
   "property": "C48",
   "status": "partial",
   "theorems": [
    "C48_residue",
    "C48_residue_column",
    "C48_residue_mixed",
    "C48_roots",
    "C48_residue_shape_refuted",
    "C48_residue_monomial_refuted",
    "C48_rtype_refuted"
   ],
   "note": "Over any field of characteristic 0 with exact zero and closeness tests and eigenvalues with multiplicity. The identity and the vector shape hold when every pole is multiple, or there are two distinct poles and b is not constant modulo a. Otherwise: shape (n,1) with the right values (simple poles, constant numerator or one pole), RuntimeError (constant numerator with simple and multiple poles), IndexError (a monomial a). rtype min/max raise."
  },
  {
   "property": "C49",
   "status": "partial",
   "theorems": [
    "C49_residuez",
    "C49_residuez_matrix",
    "C49_residuez_matrix_refuted",
    "C48_residue_monomial_refuted",
    "C48_rtype_refuted"
   ],
   "note": "As C48; with simple poles and a constant b (or one pole) the result is an n x n matrix."
  },
  {
   "property": "C50",
   "status": "partial",
   "theorems": [
    "C50_unique_roots",
    "C50_unique_roots_exact",
    "C50_errors",
    "C50_default_rtype_refuted",
    "C50_zero_tol_refuted"
   ],
   "note": "Holds for rtype avg and a tolerance > 0. The default rtype min (and max) always raises, since complex input is required and torch.min/max reject it; with tol = 0 the groups are empty."
  },
  {
   "property": "C51",
   "status": "partial",
   "theorems": [
    "C51_real",
    "C51_complex",
    "C51_flags",
    "C51_mixed_refuted",
    "C51_complex_repeated_refuted",
    "C51_equal_modulus_refuted",
    "C51_negative_gain_refuted",
    "C51_empty_refuted",
    "C51_rtype_refuted"
   ],
   "note": "Proved when all poles are real (any multiplicity) and when all are complex, simple and of different moduli, with b0, a0 not 0 and positive gains. False for sections of both kinds (the flags are not those of the poles, C51_flags), for repeated complex poles (raises), for pairs of equal modulus, for a negative gain (NaN)."
  },
  {
   "property": "C52",
   "status": "partial",
   "theorems": [
    "C52_cpu_kernels",
    "C52_cpu_kernels_exact",
    "C52_lti_recur",
    "C52_lti_recurN",
    "C52_recurN",
    "C52_lti_recur2",
    "C52_recur2",
    "C52_batch_iff",
    "C52_steps_iff",
    "C52_batch_steps_iff",
    "C52_lti_state_space",
    "C52_lti_all_arguments",
    "C52_lpv_all_arguments",
    "C52_lpv_state_space",
    "C52_cuda_inputs",
    "C52_cuda_scan",
    "C52_python_rejects",
    "C52_lti_recurN_refuted",
    "C52_state_space_refuted",
    "C52_rank_refuted"
   ],
   "note": "Proved for every accepted lti_recur call, for the matrix operators when A has a matrix per signal (and step), for lti.state_space, and for lpv.state_space (every unroll factor and back-end) when a batched A has the batch size of x; for both also with respect to x, B, C, D and the state. False in general: the operators do not compare the sizes of A with those of x, and lpv.state_space with the extension and unroll_factor=1 passes a batched A of the wrong batch size on to the kernel."
  },
  {
   "property": "C53",
   "status": "proved",
   "theorems": [
    "C53_compute_factors"
   ],
   "note": "Both modes; without include_powers the multiplicities have to be positive, as unique_roots returns them."
  },
  {
   "property": "C54",
   "status": "partial",
   "theorems": [
    "C54_LTIRecurrence",
    "C54_LTIMatrixRecurrence",
    "C54_MatrixRecurrence",
    "C54_LTIRecurrence_symmetric",
    "C54_LTIMatrixRecurrence_symmetric",
    "C54_MatrixRecurrence_symmetric",
    "C54_one_sample_refuted"
   ],
   "note": "Forward over reverse: exact for every signal of at least one sample, any subset of missing directions, shared or batched coefficients; the Hessian is symmetric.  Reverse over reverse: on one-sample signals LTIRecurrence raises IndexError, because its backward runs an empty recursion whose backward raises (proved for all inputs); otherwise what the autograd engine composes is not modelled."
  },
  {
   "property": "C55",
   "status": "partial",
   "theorems": [
    "C55_lfilter",
    "C55_fir",
    "C55_comb_filter",
    "C55_state_space",
    "C55_linear_recurrence"
   ],
   "note": "From rest; lengths N' <= N + d, so also signals extended by the delay.  lfilter: state-space back-end, order at least one (C19).  fir transposed: at least two taps (C21).  comb_filter: delay one, or the extension available (C29).  state_space: the shapes of C11."
  },
  {
   "property": "C56",
   "status": "proved",
   "theorems": [
    "C56_lfilter_cascade",
    "C56_lfilter_commute",
    "C56_fir_cascade"
   ],
   "note": "State-space back-end; different forms with real coefficients or one form with complex ones (forms_fit).  fir in transposed form: at least two taps (C21)."
  },
  {
   "property": "C57",
   "status": "partial",
   "theorems": [
    "C57_state_space",
    "C57_state_space_rest",
    "C57_lpv_state_space",
    "C57_lfilter",
    "C57_lfilter_rest",
    "C57_lpv_lfilter",
    "C57_fir",
    "C57_lpv_fir",
    "C57_lpv_allpole",
    "C57_comb_filter",
    "C57_linear_recurrence"
   ],
   "note": "With both states for state_space, lfilter (df2 against tdf2), fir and allpole (direct against transposed); the side conditions of C04, C13, C21-C24 and C29 (unroll factors, at least two taps, length at least the order, extension for comb delays above one) remain."
  },
  {
   "property": "C58",
   "status": "partial",
   "theorems": [
    "C58_lfilter_refuted",
    "C58_lfilter_df2_bank",
    "C58_lfilter_df2_bank_solves",
    "C58_lfilter_other_forms_raise",
    "C58_lfilter_batched_a_raises",
    "C58_lpv_torchlpc_df2",
    "C58_lpv_torchlpc_df1",
    "C58_lpv_torchlpc_tdf1_partial",
    "C58_lpv_ssm_refuted",
    "C58_lpv_ssm_ext_refuted"
   ],
   "note": "Refuted for lti.lfilter for every P >= 2: df2 with a batch of b returns (1, N, P), everything else raises.  Proved for lpv.lfilter with torchlpc (tdf1: two taps, order <= N).  Refuted for the state-space back-end: an error in Python, the first filter only with the extension (df1, tdf1)."
  },
  {
   "property": "C59",
   "status": "proved",
   "theorems": [
    "C59_lfilter_tangent",
    "C59_lfilter_gradient",
    "C59_state_space_tangent",
    "C59_state_space_gradient",
    "C59_lpv_state_space_tangent",
    "C59_lpv_state_space_gradient"
   ],
   "note": "Derivative = eps part of the call on dual numbers.  lfilter: state-space back-end from rest, orders >= 1; tangent also for complex coefficients in df2 and tdf2, gradient in df2.  state_space: all shapes of C11 and C13, with initial state and a gradient of the final state."
  },
  {
   "property": "C60",
   "status": "partial",
   "theorems": [
    "C60_recur2_refuted",
    "C60_recur2_cuda",
    "C60_operators_partial",
    "C60_fake_kernels",
    "C60_promote_lub",
    "C60_promote0",
    "C60_plus_0j",
    "C60_linear_recurrence",
    "C60_linear_recurrence_refuted",
    "C60_recursion",
    "C60_state_space_uniform",
    "C60_state_space_accepted",
    "C60_state_space_zi_refuted",
    "C60_lfilter",
    "C60_lfilter_forms_refuted",
    "C60_shapes_lti",
    "C60_shapes_lpv",
    "C60_shapes_diag",
    "C60_lpv_state_space_uniform",
    "C60_lpv_state_space_accepted",
    "C60_lpv_cuda_refuted",
    "C60_diag_uniform",
    "C60_diag_accepted",
    "C60_diag_real_system_refuted",
    "C60_diag_complex_signal_refuted",
    "C60_diag_eigenvalues_refuted",
    "C60_diag_lfilter_refuted"
   ],
   "note": "Refuted: recur2.cu compares zi with zi and A with A, so the CUDA kernel, and lpv.state_space of order two with it, accepts other zi than the CPU one (never misreading memory); linear_recurrence accepts mixed types only without unrolling; without zi a signal of another type than A is rejected; df1 and tdf1 accept fewer combinations than df2 and tdf2; diag_state_space without C and the diag_ssm tdf2 filter return complex numbers for real systems; a complex signal through a real system with a real C comes out real; complex eigenvalues without V never work with a real signal.  The acceptance conditions are proved; Helion, ParaRNN and torchlpc are not covered."
  },
  {
   "property": "C61",
   "status": "proved",
   "theorems": [
    "C61_operator",
    "C61_python",
    "C61_lpv_python",
    "C61_agree",
    "C61_lti_recurN",
    "C61_recurN",
    "C61_helion_lti",
    "C61_helion_lpv",
    "C61_lti_recur2",
    "C61_recur2",
    "C61_stable",
    "C61_exact",
    "C61_float",
    "C61_float_closed",
    "C61_bitwise_refuted"
   ],
   "note": "Real arithmetic; contract `rounds` in SpecRound.v, met by p-bit binary floating point (C61_float).  Equality bit for bit between back-ends or unroll factors is refuted."
  },
  {
   "property": "C62",
   "status": "proved",
   "theorems": [
    "C62_recursion",
    "C62_state_space",
    "C62_agree",
    "C62_bitwise_refuted"
   ],
   "note": "Every unroll factor, shape and back-end.  Equality bit for bit over the unroll factors is refuted, as stated."
  },
  {
   "property": "C63",
   "status": "proved",
   "theorems": [
    "C63_linear_recurrence",
    "C63_lpv_linear_recurrence",
    "C63_state_space",
    "C63_lpv_state_space",
    "C63_forgets",
    "C63_lfilter",
    "C63_lpv_lfilter_df2",
    "C63_lpv_allpole",
    "C63_comb_filter",
    "C63_fir",
    "C63_sharp",
    "C63_unstable",
    "C63_rounding"
   ],
   "note": "Every function named in the property, under the side conditions under which it computes its recursion at all (unroll factors of lpv.state_space as in C04, comb_filter with the extension or delay one as in C29, order at least one for lfilter as in C19; allpole and fir in direct form from rest)."
  },
  {
   "property": "C64",
   "status": "proved",
   "theorems": [
    "C64_fir",
    "C64_fir_outside",
    "C64_lpv_fir",
    "C64_lpv_fir_outside",
    "C64_lpv_allpole",
    "C64_lpv_allpole_outside",
    "C64_comb_filter",
    "C64_comb_filter_rest",
    "C64_diag_shift",
    "C64_lfiltic_one_tap",
    "C64_polydiv"
   ],
   "note": "Equivalences for all sizes and values; the behaviour outside each domain is described too."
  },
  {
   "property": "C65",
   "status": "proved",
   "theorems": [
    "C65_lfilter_convolution",
    "C65_lfilter_same",
    "C65_lfilter_parallel",
    "C65_lfilter_inverse",
    "C65_state_space_response",
    "C65_state_space_same",
    "C65_state_space_coordinates",
    "C65_lpv_state_space_coordinates",
    "C65_state_space_exponential"
   ],
   "note": "All parts, for every shape covered by C11, C13 and C19."
  },
  {
   "property": "C66",
   "status": "proved",
   "theorems": [
    "C66_fir",
    "C66_fir_state",
    "C66_firt_state",
    "C66_lfilter",
    "C66_lfilter_df2",
    "C66_lfilter_tdf2",
    "C66_forms_agree",
    "C66_bitwise_refuted"
   ],
   "note": "Every form, shape and back-end of C19.  Equality bit for bit of the forms is refuted, as stated."
  },
  {
   "property": "C67",
   "status": "proved",
   "theorems": [
    "C67_lpv_lfilter_gradient",
    "C67_lpv_lfilter_tangent",
    "C67_lpv_lfilter_gradient_rest",
    "C67_lfilter_gradient",
    "C67_fir_gradient",
    "C67_lpv_fir_gradient",
    "C67_lpv_allpole_gradient",
    "C67_comb_filter_gradient",
    "C67_linear_recurrence_gradient"
   ],
   "note": "All parts, with state; fir, lpv.fir and lpv.allpole for orders from 1 to the length, where the transposed call works (C64)."
  },
  {
   "property": "C68",
   "status": "proved",
   "theorems": [
    "C68_fir",
    "C68_lpv_fir",
    "C68_fir_rest",
    "C68_fir_forms_refuted",
    "C68_fir_next",
    "C68_lfilter",
    "C68_lfilter_zeros_refuted",
    "C68_lfilter_next",
    "C68_lfiltic",
    "C68_lfilter_zi",
    "C68_filtfilt",
    "C68_comb_filter",
    "C68_lpv_lfilter",
    "C68_lpv_as_lti",
    "C68_torchlpc_uniform",
    "C68_torchlpc_refuted"
   ],
   "note": "All parts, as equivalences.  That forms and back-ends accept the same types is refuted, as stated."
  },
  {
   "property": "C69",
   "status": "proved",
   "theorems": [
    "C69_recursion",
    "C69_state_space",
    "C69_agree",
    "C69_bitwise_refuted"
   ],
   "note": "All parts; the external routines of torchlpc and ParaRNN are excluded by lpv_own."
  },
  {
   "property": "C70",
   "status": "proved",
   "theorems": [
    "C70_fir",
    "C70_fir_state",
    "C70_firt_state",
    "C70_lfilter",
    "C70_lfilter_df2",
    "C70_lfilter_tdf2",
    "C70_agree",
    "C70_bitwise_refuted"
   ],
   "note": "All parts, for the sizes on which the calls work: transposed fir with at least two taps (from rest) and order at most the length (with state) as in C64; df2 and tdf2 with per-batch coefficients for B <> N as in C22.  Equality bit for bit over the unroll factors is refuted, as stated."
  },
  {
   "property": "C71",
   "status": "proved",
   "theorems": [
    "C71_machine",
    "C71_stream",
    "C71_causal",
    "C71_fir",
    "C71_lfilter",
    "C71_lfilter_df1",
    "C71_unroll_refuted",
    "C71_length_refuted",
    "C71_firt_refuted"
   ],
   "note": "All parts; lfilter over the numbers of any ordered field with arbitrary addition, multiplication and subtraction.  fir for at least two taps.  Unrolled and transposed cases are refuted, as stated."
  },
  {
   "property": "C72",
   "status": "proved",
   "theorems": [
    "C72_state_space",
    "C72_lfilter",
    "C72_scan_refuted"
   ],
   "note": "All parts; lfilter over the numbers of any ordered field with arbitrary addition, commutative multiplication and subtraction.  What torch.addmm really does (order of summation, fused multiply-adds) is outside the model: it is taken to sum left to right and then to add."
  },
  {
   "property": "C73",
   "status": "proved",
   "theorems": [
    "C73_values",
    "C73_stream",
    "C73_causal",
    "C73_backends",
    "C73_lti",
    "C73_unroll_refuted"
   ],
   "note": "All parts, for the shapes the dispatch reads as meant (C14); chunks must pass the same of the optional arguments.  Scalar states run by torchlpc, the CUDA scan and the ParaRNN reduction are excluded; library products are taken to sum left to right."
  },
  {
   "property": "C74",
   "status": "proved",
   "theorems": [
    "C74_lti",
    "C74_lpv",
    "C74_cpu",
    "C74_causal",
    "C74_lpv_causal",
    "C74_stream",
    "C74_lpv_stream",
    "C74_agree",
    "C74_unroll_refuted"
   ],
   "note": "All parts.  torch.addcmul is taken to round the product and then the sum; a fused multiply-add is another operation."
  },
  {
   "property": "C75",
   "status": "proved",
   "theorems": [
    "C75_lpv",
    "C75_lti",
    "C75_agree",
    "C75_backends",
    "C75_stream",
    "C75_causal",
    "C75_unroll_refuted"
   ],
   "note": "All parts.  The shapes that lpv.state_space misreads (a batch as long as the signal, C14) are excluded by shapes_ok."
  },
  {
   "property": "C76",
   "status": "proved",
   "theorems": [
    "C76_recurrence",
    "C76_lpv_recurrence",
    "C76_state_space",
    "C76_lpv_state_space",
    "C76_lfilter",
    "C76_lpv_lfilter",
    "C76_float",
    "C76_three_refuted"
   ],
   "note": "All parts; unrolled calls are outside the statement."
  },
  {
   "property": "C77",
   "status": "proved",
   "theorems": [
    "C77_fir",
    "C77_stream",
    "C77_causal",
    "C77_transposed_causal",
    "C77_agree",
    "C77_scale",
    "C77_agree_refuted",
    "C77_transposed_refuted"
   ],
   "note": "All parts, for at least one sample; the agreement with lti.fir for order at least 1. The sum of products is modelled as a left-to-right sum starting from 0 (vecdot, see DESIGN.md), so bit-for-bit statements are relative to that order."
  },
  {
   "property": "C78",
   "status": "proved",
   "theorems": [
    "C78_df2",
    "C78_df1",
    "C78_stream",
    "C78_causal",
    "C78_scale",
    "C78_float",
    "C78_backends_refuted"
   ],
   "note": "All parts, for at least one numerator and one denominator coefficient. The order of the sum inside torchlpc is that of the model (M_Ext.v)."
  },
  {
   "property": "C79",
   "status": "proved",
   "theorems": [
    "C79_rounds",
    "C79_lpv_lfilter",
    "C79_lfilter",
    "C79_lpv_fir",
    "C79_torchlpc",
    "C79_state_refuted"
   ],
   "note": "All parts. For torchlpc the signal must be at least as long as the longer denominator (allpole returns a wrong state otherwise). The sign of zero is not modelled."
  },
  {
   "property": "C80",
   "status": "proved",
   "theorems": [
    "C80_filtfilt",
    "C80_filtfilt1",
    "C80_lfilter1",
    "C80_rows",
    "C80_one",
    "C80_scale",
    "C80_scale1"
   ],
   "note": "All parts. The steady state is whatever lfilter_zi returned, of shape (M) or (B, M), for a 1-D signal (M)."
  }
 ]
}