{"id": "C01", "title": "lti.linear_recurrence computes the scalar recurrence", "statement": "lti.linear_recurrence(a, init, x, unroll_factor=u) returns a tensor of x's shape whose entries satisfy h[b,t] = a_b*h[b,t-1] + x[b,t] with h[b,-1] = init_b; a and init may be 0-d, one-element, or per-batch.", "quantifier": "every commutative scalar ring with conjugation, every batch size >= 1, every length >= 1, every unroll_factor >= 1, all coefficient/initial shapes accepted by the docstring", "why_tests_cant": "Tests try a few lengths and unroll factors with random data; the blocked algorithm recurses on padded block ends, so correctness is a claim about all (length, factor) pairs.", "anchors": ["philtorch/lti/recur.py:linear_recurrence", "philtorch/lti/recur.py:_scalar_recursion_loop"]}
{"id": "C02", "title": "lpv.linear_recurrence computes the time-varying scalar recurrence", "statement": "lpv.linear_recurrence(a, init, x, unroll_factor=u) satisfies h[b,t] = a[b,t]*h[b,t-1] + x[b,t] with h[b,-1] = init_b.", "quantifier": "every scalar ring, batch, length >= 1, unroll_factor >= 1", "why_tests_cant": "As C01: infinitely many (length, factor) pairs and all coefficient trajectories.", "anchors": ["philtorch/lpv/recur.py:linear_recurrence"]}
{"id": "C03", "title": "lti.state_space_recursion computes the matrix recurrence for every unroll factor", "statement": "lti.state_space_recursion(A, zi, x, unroll_factor=u, out_idx=i) returns h[b,t,:] = A h[b,t-1,:] + u[b,t,:] (h[b,-1]=zi[b]); a 2-D x drives component 0 only, a 3-D x drives all components; out_idx selects that component.", "quantifier": "all rings, batch, order M >= 1, length N >= 1, unroll_factor >= 1, shared or batched A, 2-D or 3-D x, every legal (possibly negative) out_idx", "why_tests_cant": "The unrolled code builds a block-Toeplitz matrix of matrix powers; tests compare a handful of factors on one size.", "anchors": ["philtorch/lti/ssm.py:state_space_recursion", "philtorch/lti/ssm.py:_recursion_loop", "philtorch/mat.py:matrix_power_accumulate"]}
{"id": "C04", "title": "lpv.state_space_recursion computes the time-varying matrix recurrence for every unroll factor", "statement": "lpv.state_space_recursion(A, zi, x, unroll_factor=u, out_idx=i) returns h[b,t,:] = A[b,t] h[b,t-1,:] + u[b,t,:] whatever unroll_factor is.", "quantifier": "all rings, batch, order, length, unroll_factor >= 1, shared or batched A, 2-D or 3-D x, out_idx", "why_tests_cant": "Existing tests use unroll factors for which the block product has a prime number of terms, or time-constant matrices that commute; the claim is about all factors and trajectories.", "anchors": ["philtorch/lpv/ssm.py:state_space_recursion", "philtorch/mat.py:matrices_cumdot"]}
{"id": "C05", "title": "matrices_cumdot returns cumulative ordered matrix products", "statement": "mat.matrices_cumdot(A) returns, at position k, the product A_0 A_1 ... A_k in that order.", "quantifier": "all rings, sequence lengths, matrix sizes and matrices (not assumed to commute)", "why_tests_cant": "Tests cannot range over lengths (the algorithm follows the prime factorisation of the length) and non-commuting matrices.", "anchors": ["philtorch/mat.py:matrices_cumdot", "philtorch/mat.py:_mat_cumdot_runner"]}
{"id": "C06", "title": "matrix_power_accumulate returns A, A^2, ..., A^n", "statement": "mat.matrix_power_accumulate(A, n) returns a stack whose k-th entry is A^(k+1), for single and batched A.", "quantifier": "all rings, n >= 1, matrix sizes, batch shapes", "why_tests_cant": "The algorithm branches on the factorisation of n; tests only reach small n.", "anchors": ["philtorch/mat.py:matrix_power_accumulate", "philtorch/mat.py:_mat_pwr_accum_runner"]}
{"id": "C07", "title": "Compiled CPU kernels compute the recurrences under every thread schedule", "statement": "The CPU kernels behind torch.ops.philtorch.recurN/recur2/lti_recurN/lti_recur2/lti_recur return the recurrence of their inputs, and the result does not depend on how OpenMP interleaves the per-batch workers.", "quantifier": "all batch sizes, lengths, orders, data, and every interleaving of the workers' memory accesses", "why_tests_cant": "A test observes one schedule per run; race freedom is a claim about all interleavings.", "anchors": ["philtorch/csrc/host_recurN.cpp", "philtorch/csrc/host_recur2.cpp", "philtorch/csrc/host_lti_recur.cpp", "philtorch/csrc/host_lti_recurN.cpp"]}
{"id": "C08", "title": "Scan kernels compute the recurrences under every scan tree", "statement": "The inclusive-scan(-by-key) formulation of the recurrences gives the sequential recurrence for every way a parallel scan may parenthesise its combines, and batches never leak into each other.", "quantifier": "all data, lengths, batch sizes and all parenthesisations of the scan", "why_tests_cant": "GPU scan trees depend on hardware and length; tests see one tree.", "anchors": ["philtorch/csrc/recur2.cuh", "philtorch/csrc/recur2.cu", "philtorch/csrc/lti_recur2.cu", "philtorch/csrc/lti_recur.cu"]}
{"id": "C09", "title": "The back-end never changes the result of lti.state_space / state_space_recursion", "statement": "Whether the compiled extension or Helion is installed, and whether tensors live on CPU or CUDA, lti.state_space_recursion and lti.state_space return the same values and do not fail.", "quantifier": "all back-end configurations, inputs", "why_tests_cant": "Back-end availability is fixed per test machine; CUDA/Helion rows are skipped in CI.", "anchors": ["philtorch/lti/ssm.py:extension_backend_indicator", "philtorch/lti/ssm.py:helion_backend_indicator", "philtorch/lti/ssm.py:_ext_ss_recur", "philtorch/lti/ssm.py:LTIMatrixRecurrence.forward"]}
{"id": "C10", "title": "The back-end never changes the result of lpv.state_space / state_space_recursion", "statement": "The same for lpv.state_space_recursion and lpv.state_space, including the ParaRNN route.", "quantifier": "all back-end configurations, inputs", "why_tests_cant": "As C09.", "anchors": ["philtorch/lpv/ssm.py:extension_backend_indicator", "philtorch/lpv/ssm.py:_ext_ss_recur", "philtorch/lpv/ssm.py:_pararnn_applicable", "philtorch/lpv/ssm.py:MatrixRecurrence.forward"]}
{"id": "C11", "title": "lti.state_space implements h[t+1]=A h[t]+B x[t], y[t]=C h[t]+D x[t]", "statement": "lti.state_space returns exactly the documented output and, when zi is given, the documented final state h[N], for every documented combination of B, C, D, zi shapes, out_idx and unroll_factor (including the default).", "quantifier": "all rings, sizes, documented shape combinations, unroll factors, back-ends", "why_tests_cant": "The shape dispatch multiplies to dozens of combinations times all lengths; tests sample a few.", "anchors": ["philtorch/lti/ssm.py:state_space"]}
{"id": "C12", "title": "Shape dispatch of lti.state_space follows the documentation for every size", "statement": "A documented shape for B, C or D keeps its documented meaning for every batch size; in particular an (M,F) input matrix and a (P,M) output matrix are accepted and shared by all batches.", "quantifier": "all batch sizes, M, F, P", "why_tests_cant": "The dispatch is by numeric equality of sizes, so it goes wrong only for coincidental sizes that tests do not use.", "anchors": ["philtorch/lti/ssm.py:state_space"]}
{"id": "C13", "title": "lpv.state_space implements the time-varying state-space equations", "statement": "lpv.state_space returns y[t]=C[t]h[t]+D[t]x[t], h[t+1]=A[t]h[t]+B[t]x[t] for documented shapes of B, C, D, zi.", "quantifier": "all rings, sizes, documented shapes, unroll factors", "why_tests_cant": "As C11, plus all coefficient trajectories.", "anchors": ["philtorch/lpv/ssm.py:state_space"]}
{"id": "C14", "title": "Shape dispatch of lpv.state_space follows the documentation for every size", "statement": "A per-batch-and-time coefficient keeps its documented meaning when the batch size happens to equal the signal length.", "quantifier": "all batch sizes and lengths", "why_tests_cant": "Only wrong when batch size equals the length.", "anchors": ["philtorch/lpv/ssm.py:state_space"]}
{"id": "C15", "title": "Streaming: processing a signal in chunks equals processing it at once", "statement": "Splitting x into two chunks and passing the final state of the first call as zi of the second gives the concatenation of the outputs and the same final state (lti.state_space, lti.lfilter forms df2/tdf2, lti.fir, lpv.fir, lpv.allpole).", "quantifier": "all split points, lengths, coefficients, unroll factors (which may differ per call)", "why_tests_cant": "All split positions times all lengths.", "anchors": ["philtorch/lti/ssm.py:state_space", "philtorch/lti/filtering.py:lfilter", "philtorch/lti/filtering.py:fir", "philtorch/lpv/filtering.py:fir", "philtorch/lpv/filtering.py:allpole"]}
{"id": "C16", "title": "Batches are independent", "statement": "Row b of the result depends only on row b of the inputs (and shared coefficients).", "quantifier": "all inputs differing in other rows", "why_tests_cant": "Relational property over pairs of inputs.", "anchors": ["philtorch/lti/ssm.py:state_space", "philtorch/lpv/ssm.py:state_space_recursion", "philtorch/lti/filtering.py:lfilter"]}
{"id": "C17", "title": "Causality", "statement": "Output samples up to time n do not depend on input samples after n, despite block padding and unrolling.", "quantifier": "all pairs of inputs agreeing up to n, all unroll factors", "why_tests_cant": "Relational property over pairs of inputs; blocked code touches future samples internally.", "anchors": ["philtorch/lti/ssm.py:state_space_recursion", "philtorch/lti/recur.py:linear_recurrence", "philtorch/lti/filtering.py:lfilter"]}
{"id": "C18", "title": "Linearity", "statement": "For fixed coefficients the state-space and filter outputs (and final states) are linear in (input, initial state).", "quantifier": "all scalars, inputs and states", "why_tests_cant": "Relational over triples of inputs.", "anchors": ["philtorch/lti/ssm.py:state_space", "philtorch/lti/filtering.py:lfilter"]}
{"id": "C19", "title": "lti.lfilter solves the difference equation in each direct form", "statement": "For real coefficients lti.lfilter(b, a, x, form=f) without zi returns the y with y[n] + sum_k a_k y[n-k] = sum_k b_k x[n-k] (zero history), for f in df1, df2, tdf1, tdf2 and for shared or per-batch coefficients.", "quantifier": "all orders of b and a (b longer or shorter than a), lengths, batches, unroll factors", "why_tests_cant": "Tests compare to scipy for some orders.", "anchors": ["philtorch/lti/filtering.py:lfilter", "philtorch/lti/filtering.py:_ssm_lfilter"]}
{"id": "C20", "title": "All lti.lfilter forms agree, also for complex coefficients", "statement": "The choice of form never changes the zero-state output.", "quantifier": "all rings with conjugation (complex), orders, signals", "why_tests_cant": "Tests only use real coefficients.", "anchors": ["philtorch/lti/filtering.py:lfilter", "philtorch/lti/filtering.py:_ssm_lfilter", "philtorch/lti/filtering.py:fir"]}
{"id": "C21", "title": "lti.fir is convolution and its state streams, for every order", "statement": "lti.fir(b, x) returns y[n] = sum_k b_k x[n-k]; with zi it returns the continuation and the next state; transposed and direct form agree.", "quantifier": "all tap counts >= 1 (including one tap), lengths >= 1 (including shorter than the order)", "why_tests_cant": "Edge sizes (one tap, signal shorter than the filter) are not tested.", "anchors": ["philtorch/lti/filtering.py:fir"]}
{"id": "C22", "title": "lpv.fir is time-varying convolution for every order and length", "statement": "lpv.fir(b, x) returns y[n] = sum_k b[n,k] x[n-k]; the transposed form returns y[n] = sum_k b[n-k,k] x[n-k]; both stream through zi.", "quantifier": "all tap counts >= 1, lengths >= 1", "why_tests_cant": "As C21.", "anchors": ["philtorch/lpv/filtering.py:fir", "philtorch/lpv/utils.py:diag_shift"]}
{"id": "C23", "title": "lpv.allpole solves the time-varying all-pole equation and inverts lpv.fir", "statement": "lpv.allpole(a, x) returns y[n] = x[n] - sum_k a[n,k] y[n-k] (transposed: a[n-k,k]); filtering by fir with taps (1, a) of the same orientation and then allpole (or vice versa) is the identity.", "quantifier": "all orders, lengths, trajectories", "why_tests_cant": "All trajectories; edge length below the order.", "anchors": ["philtorch/lpv/filtering.py:allpole"]}
{"id": "C24", "title": "lpv.lfilter implements the documented time-varying forms and back-ends agree", "statement": "Each form (df1, df2, tdf1, tdf2) of lpv.lfilter returns the output of the corresponding time-varying structure, and backend='ssm' equals backend='torchlpc'.", "quantifier": "all orders, lengths, time-varying coefficients, back-ends, unroll factors", "why_tests_cant": "Back-ends are compared on time-constant coefficients or for selected forms only.", "anchors": ["philtorch/lpv/filtering.py:lfilter", "philtorch/lpv/filtering.py:_ssm_lfilter", "philtorch/lpv/filtering.py:_torchlpc_lfilter"]}
{"id": "C25", "title": "diag_shift shifts column k down by k+offset", "statement": "lpv.utils.diag_shift(c, offset)[..., j, k] = c[..., j-k-offset, k] when that index exists and 0 otherwise, with T rows.", "quantifier": "all T, M, offset", "why_tests_cant": "Slicing by a computed negative bound that becomes 0 for one size.", "anchors": ["philtorch/lpv/utils.py:diag_shift"]}
{"id": "C26", "title": "lfiltic gives the state that continues a past signal", "statement": "lti.lfiltic(b, a, y_past, x_past) is the tdf2 state such that lfilter(b, a, x, zi, form='tdf2') continues the difference equation with that past.", "quantifier": "all orders (including a single feed-forward tap), all pasts", "why_tests_cant": "Tests compare to scipy for chosen orders.", "anchors": ["philtorch/lti/filtering.py:lfiltic"]}
{"id": "C27", "title": "lfilter_zi gives the steady state", "statement": "With zi = lfilter_zi(a, b) * c, filtering the constant signal c returns a constant output, for transpose True (tdf2) and False (df2).", "quantifier": "all orders of a and b, whenever the linear solve succeeds", "why_tests_cant": "All coefficient vectors and lengths; unequal orders.", "anchors": ["philtorch/lti/filtering.py:lfilter_zi"]}
{"id": "C28", "title": "filtfilt preserves length, has no transient on constants, and supports every form", "statement": "lti.filtfilt(b, a, x) has the shape of x, and a constant input c returns the constant H(1)^2 c with no edge transient; every documented form works.", "quantifier": "all orders, lengths, pad lengths, forms", "why_tests_cant": "Forms df1/tdf1 and long numerators are untested.", "anchors": ["philtorch/lti/filtering.py:filtfilt"]}
{"id": "C29", "title": "comb_filter computes the comb recurrence for every delay", "statement": "lti.comb_filter(a, delay, x) returns y[n] = x[n] - a*y[n-delay]; with zi it continues and returns the last `delay` outputs as next state; it works with and without the compiled extension.", "quantifier": "all delays >= 1, lengths, batches, back-ends", "why_tests_cant": "Extension presence is fixed per machine; delay not dividing the length, delay 1, delay longer than the signal.", "anchors": ["philtorch/lti/filtering.py:comb_filter"]}
{"id": "C30", "title": "polydiv is polynomial division with remainder", "statement": "poly.polydiv(u, v) returns (q, r) with u = q*v + r and r shorter than v; when u is shorter than v the quotient is empty and r = u.", "quantifier": "all fields, degrees, coefficient vectors with invertible leading coefficient, batches", "why_tests_cant": "All degree pairs; the short-dividend case is untested.", "anchors": ["philtorch/poly.py:polydiv"]}
{"id": "C31", "title": "companion and vandermonde diagonalise each other", "statement": "If p_0..p_{M-1} are roots of z^M + a_1 z^(M-1) + ... + a_M then companion(a) @ vandermonde(p) = vandermonde(p) @ diag(p).", "quantifier": "all rings, orders, roots", "why_tests_cant": "Random tests use float tolerance on a few orders.", "anchors": ["philtorch/mat.py:companion", "philtorch/mat.py:vandermonde"]}
{"id": "C32", "title": "find_eigenvectors returns eigenvectors", "statement": "mat.find_eigenvectors(A, L) returns V with A V = V diag(L) whenever each eigenvector can be scaled to first component 1 and the inner solve succeeds; it should work for companion matrices.", "quantifier": "all matrices, eigenvalues, orders", "why_tests_cant": "Existence of a valid scaling depends on the data.", "anchors": ["philtorch/mat.py:find_eigenvectors"]}
{"id": "C33", "title": "diag_state_space equals state_space on the diagonalised system", "statement": "If A = V diag(L) V^-1 then diag_state_space(L, V, x, ...) returns what state_space(A, x, ...) returns, for output and final state.", "quantifier": "all diagonalisable A, sizes, shapes, unroll factors", "why_tests_cant": "Equality of two algorithms over all inputs.", "anchors": ["philtorch/lti/ssm.py:diag_state_space", "philtorch/lti/ssm.py:_ssm_C_D"]}
{"id": "C34", "title": "The diagonal lfilter back-end solves the difference equation, honours zi", "statement": "lti.lfilter(..., backend='diag_ssm') returns the same output (and final state, when zi is given) as backend='ssm', in plain and delayed form, for every relation between the orders of b and a.", "quantifier": "all orders, delays, lengths, zi", "why_tests_cant": "All order relations; zi with this back-end is untested.", "anchors": ["philtorch/lti/filtering.py:_diag_ssm_lfilter", "philtorch/lti/filtering.py:lfilter"]}
{"id": "C35", "title": "Forward-mode derivatives are exact", "statement": "The jvp of LTIRecurrence, LTIMatrixRecurrence and MatrixRecurrence is the exact directional derivative of the forward map in the coefficients, initial state and input.", "quantifier": "all primal points and tangents, sizes", "why_tests_cant": "gradcheck samples random points with tolerance at one size.", "anchors": ["philtorch/lti/recur.py:LTIRecurrence.jvp", "philtorch/lti/ssm.py:LTIMatrixRecurrence.jvp", "philtorch/lpv/ssm.py:MatrixRecurrence.jvp"]}
{"id": "C36", "title": "Backward passes are the adjoint of the derivative", "statement": "For LTIRecurrence, LTIMatrixRecurrence, MatrixRecurrence and the registered-op backward functions, <g, jvp(v)> = <backward(g), v> for the (conjugate-linear) inner product.", "quantifier": "all primal points, cotangents g, tangents v, sizes, shared or batched coefficients", "why_tests_cant": "gradcheck samples random points with tolerance at one size; registered-op backward is only run by opcheck.", "anchors": ["philtorch/lti/recur.py:LTIRecurrence.backward", "philtorch/lti/ssm.py:LTIMatrixRecurrence.backward", "philtorch/lpv/ssm.py:MatrixRecurrence.backward", "philtorch/__init__.py:_recurN_backward", "philtorch/__init__.py:_lti_recurN_backward", "philtorch/__init__.py:_lti_recur_backward"]}
{"id": "C37", "title": "Fake kernels predict the real output shape", "statement": "For arguments a compiled operator accepts, its registered fake implementation succeeds and reports the shape the operator returns.", "quantifier": "all argument shapes", "why_tests_cant": "All shape combinations.", "anchors": ["philtorch/__init__.py:register_fake"]}
{"id": "C38", "title": "cspline coefficients interpolate the samples", "statement": "The B-spline through cspline(x) passes through x: (c[k-1]+4c[k]+c[k+1])/6 = x[k] for every interior k, and at the right end with the padding rule's mirrored neighbour.", "quantifier": "all lengths, signals, both forms, both paddings; r any root of r^2+4r+1=0", "why_tests_cant": "Float tolerance on random signals of chosen lengths.", "anchors": ["philtorch/lti/interp.py:cspline", "philtorch/lti/interp.py:_cubic_coeff"]}
{"id": "C39", "title": "cubic_spline output has the documented length and evaluates the spline", "statement": "cubic_spline(x, m) has length (L-1)m+1 and its sample mk+j is the B-spline with coefficients cspline(x) evaluated at k + j/m; so interior original samples are reproduced exactly at multiples of m.", "quantifier": "all lengths, m >= 1, signals", "why_tests_cant": "All (length, m) pairs.", "anchors": ["philtorch/lti/interp.py:cubic_spline", "philtorch/lti/interp.py:_cubic_spline_kernel"]}
{"id": "C40", "title": "newton_solve converges causally", "statement": "prototype newton_solve on a causal function returns outputs whose first k samples equal the sequential solution after k iterations, and solves an affine function in one iteration.", "quantifier": "all orders, lengths, functions, iteration counts", "why_tests_cant": "All functions and iteration counts.", "anchors": ["philtorch/prototype/nl.py:newton_solve"]}
{"id": "C41", "title": "chain_functions composes left to right", "statement": "utils.chain_functions(f1, ..., fn)(x) = fn(...f1(x)); with no functions it is the identity.", "quantifier": "all finite lists of functions", "why_tests_cant": "All lists.", "anchors": ["philtorch/utils.py:chain_functions"]}
{"id": "C42", "title": "Prototype polynomial helpers are ring operations", "statement": "polymul, polyadd, polysub, polysmul, polyval, polyder are the operations on polynomials: polyval(polymul(p,q),z)=polyval(p,z)polyval(q,z), etc.", "quantifier": "all rings, degrees, coefficient vectors", "why_tests_cant": "All degrees.", "anchors": ["philtorch/prototype/poly.py"]}
{"id": "C43", "title": "README Fibonacci example holds for every length", "statement": "The README's state-space example generates the Fibonacci numbers for every N and unroll factor.", "quantifier": "all N, unroll factors", "why_tests_cant": "Shown for one N.", "anchors": ["README.md", "philtorch/lti/ssm.py:state_space_recursion"]}
{"id": "C44", "title": "Kernel index arithmetic stays in range", "statement": "The C++ kernels' flat offsets address the intended element: offsets computed in 32-bit int equal the mathematical offset.", "quantifier": "all sizes a tensor may have", "why_tests_cant": "Needs tensors beyond 2^31 elements.", "anchors": ["philtorch/csrc/host_recurN.cpp", "philtorch/csrc/host_recur2.cpp", "philtorch/csrc/host_lti_recurN.cpp"]}
{"id": "C45", "title": "Argument errors are reported as documented", "statement": "unroll_factor < 1 raises ValueError, giving both C and out_idx raises, an unknown form or backend raises ValueError, mismatched batch sizes raise, whatever the other arguments.", "quantifier": "all other arguments", "why_tests_cant": "All combinations with the remaining arguments.", "anchors": ["philtorch/lti/recur.py:linear_recurrence", "philtorch/lti/ssm.py:state_space", "philtorch/lti/filtering.py:lfilter", "philtorch/lpv/filtering.py:lfilter"]}
{"id": "C46", "title": "A 1-D signal gives the 1-D row of the batched result", "statement": "Passing an unbatched signal to lfilter/filtfilt/lfiltic gives the squeezed result of the one-row batch.", "quantifier": "all lengths, orders, forms", "why_tests_cant": "All lengths and forms.", "anchors": ["philtorch/lti/filtering.py:lfilter", "philtorch/lti/filtering.py:filtfilt"]}
{"id": "C47", "title": "newton_solve's intermediates are the successive approximations", "statement": "With return_intermediate, newton_solve's j-th intermediate is the whole-length approximation after j+1 iterations.", "quantifier": "all functions, lengths, iteration counts", "why_tests_cant": "No test looks at the intermediates; all functions and iteration counts.", "anchors": ["philtorch/prototype/nl.py:newton_solve"]}
{"id": "C48", "title": "residue is the partial-fraction expansion of b/a", "statement": "For b, a with a[0] != 0, residue returns residues r, poles p (the roots of a with multiplicity, grouped) and a direct term k such that b(z) = a(z) (k(z) + sum of r_j/(z-p)^j) for every z that is not a pole; the residues are a vector with one entry per pole.", "quantifier": "all coefficient lists of any degree, all multiplicities, any order of the sorted poles", "why_tests_cant": "No test covers prototype/signal.py; all degrees and multiplicity patterns.", "anchors": ["philtorch/prototype/signal.py:residue", "philtorch/prototype/signal.py:_compute_residues", "philtorch/prototype/signal.py:_compute_factors"]}
{"id": "C49", "title": "residuez is the partial-fraction expansion in 1/z", "statement": "For b, a with a[-1] != 0, residuez returns r, p, k such that, with w = 1/z, b(w) = a(w) (k(w) + sum of r_j/(1 - p w)^j) for every w with p w != 1; the residues are a vector with one entry per pole.", "quantifier": "all coefficient lists of any degree, all multiplicities", "why_tests_cant": "No test covers prototype/signal.py; all degrees and multiplicity patterns.", "anchors": ["philtorch/prototype/signal.py:residuez"]}
{"id": "C50", "title": "unique_roots partitions the roots into groups", "statement": "unique_roots partitions its input: every group consists of entries within the tolerance of its first entry and of the same class, the first entries of different groups are not, and the result is the mean (or min, max), the size and the class of each group.", "quantifier": "all inputs of any length, all tolerances, all classes", "why_tests_cant": "No test covers unique_roots; all inputs and tolerances.", "anchors": ["philtorch/prototype/signal.py:unique_roots"]}
{"id": "C51", "title": "sos2pfe is the partial-fraction expansion of the cascade", "statement": "sos2pfe(sos) returns G0, real residues/poles/powers and one complex residue/pole of each conjugate pair such that the product of the sections equals G0 plus the sum of r/(z-p)^w over the real terms plus the sum of r/(z-p)^w and its conjugate over the complex ones; the poles are all the poles with their multiplicities.", "quantifier": "all lists of real second-order sections, any number of sections, any pole multiplicities, all z that are not poles", "why_tests_cant": "The identity is over all section lists and all z; the failures need mixed real/complex poles, repeated complex poles, equal moduli or a negative gain.", "anchors": ["philtorch/prototype/signal.py:sos2pfe"]}
{"id": "C52", "title": "Accepted kernel calls stay inside their buffers", "statement": "Every call that a registered operator (lti_recur, lti_recur2, lti_recurN, recur2, recurN) or lpv/lti.state_space accepts reads coefficients and signals only inside the tensors given, and writes only inside the output buffer.", "quantifier": "all argument shapes accepted by the operators, all memory contents", "why_tests_cant": "An out-of-bounds read usually returns some number without an error, so a test passes or is flaky depending on memory contents; all shapes have to be considered.", "anchors": ["philtorch/csrc/host_recurN.cpp", "philtorch/csrc/host_lti_recurN.cpp", "philtorch/csrc/host_lti_recur.cpp", "philtorch/csrc/lti_recur2.cu", "philtorch/csrc/recur2.cu", "philtorch/lpv/ssm.py:state_space"]}
{"id": "C53", "title": "_compute_factors divides the total polynomial by each pole factor", "statement": "_compute_factors(roots, multiplicity, include_powers) returns the polynomial with all roots and, per root in order, that polynomial divided by (z-p)^e: for e = 1..m in this order with include_powers, for e = m only without it.", "quantifier": "all lists of roots (repeats allowed) with all multiplicities, both modes, all z, any field", "why_tests_cant": "No test covers the helper and sos2pfe/residue use only include_powers=False; the order of the block is visible only with include_powers=True and repeated roots.", "anchors": ["philtorch/prototype/signal.py:_compute_factors"]}
{"id": "C54", "title": "Second derivatives are exact", "statement": "Forward-mode differentiation of the backward passes of LTIRecurrence, LTIMatrixRecurrence and MatrixRecurrence (using their own jvp rules for the recursion run inside) gives the derivative of the gradient: for directions u, v the inner product of u with the derivative of the gradient along v is the mixed second derivative of the loss along u and v; the resulting Hessian is symmetric. Differentiating the backward pass in reverse mode works for every non-empty signal.", "quantifier": "all rings (real or complex scalars), sizes, coefficients, states, signals, output gradients and directions", "why_tests_cant": "gradgradcheck samples a few small random inputs with finite differences.", "anchors": ["philtorch/lti/recur.py:LTIRecurrence", "philtorch/lti/ssm.py:LTIMatrixRecurrence", "philtorch/lpv/ssm.py:MatrixRecurrence", "tests/test_grad.py"]}
{"id": "C55", "title": "The LTI functions are time invariant", "statement": "From rest, delaying the input of lti.lfilter (every form), fir, comb_filter, state_space and linear_recurrence by d samples (zeros in front) delays the output by d samples; with d zeros put in front, state_space also returns the same final state.", "quantifier": "all rings, batch sizes, signal lengths, delays, coefficients, documented argument shapes, unroll factors and consistent back-ends", "why_tests_cant": "Unrolled and blocked kernels process samples at different positions of a block differently; tests compare a few lengths only.", "anchors": ["philtorch/lti/filtering.py:lfilter", "philtorch/lti/filtering.py:fir", "philtorch/lti/filtering.py:comb_filter", "philtorch/lti/ssm.py:state_space", "philtorch/lti/recur.py:linear_recurrence"]}
{"id": "C56", "title": "A cascade of filters is the filter with the product of the coefficients", "statement": "lti.lfilter with (b1, a1) followed by lti.lfilter with (b2, a2), both of order at least one and from rest, equals lti.lfilter with the polynomial products b1 b2 and (1,a1)(1,a2), and the two filters may be exchanged; each call may use its own form if the coefficients are real, the same form if they are complex. The same for fir.", "quantifier": "all rings, batch sizes, lengths, orders, coefficients (shared or per batch) and signals", "why_tests_cant": "Equality of two rational systems for all coefficients is an algebraic identity, tests sample a few cascades with a tolerance.", "anchors": ["philtorch/lti/filtering.py:lfilter", "philtorch/lti/filtering.py:fir"]}
{"id": "C57", "title": "The transposed form run backwards in time is the adjoint", "statement": "For output gradient g and final-state gradient gz, running the conjugate transposed system (for state_space the transposed matrices, for lfilter, fir and allpole the transposed form with the same coefficients, for time-varying systems in reversed time) on the reversed g with initial state gz returns the gradient of the input (reversed) and the gradient of the initial state: <g,y> + <gz,zf> = <u,x> + <wf,zi>. From rest every form of lti.lfilter, comb_filter and linear_recurrence is adjoint to itself with conjugated coefficients.", "quantifier": "all rings (real or complex), sizes, lengths, coefficients, states, signals and gradients", "why_tests_cant": "The duality of the direct and transposed forms is a statement about all inputs and both states at once; tests never compare the forms through their adjoints.", "anchors": ["philtorch/lti/ssm.py:state_space", "philtorch/lpv/ssm.py:state_space", "philtorch/lti/filtering.py:lfilter", "philtorch/lpv/filtering.py:lfilter", "philtorch/lti/filtering.py:fir", "philtorch/lpv/filtering.py:fir", "philtorch/lpv/filtering.py:allpole", "philtorch/lti/filtering.py:comb_filter", "philtorch/lti/recur.py:linear_recurrence"]}
{"id": "C58", "title": "One signal through a batch of filters", "statement": "For x of shape (N,) and coefficients of shape (P, ...), lti.lfilter and lpv.lfilter return the P filtered signals, shape (P, N), row p being x through filter p, in every form and with every back-end.", "quantifier": "all P >= 2, lengths, orders, coefficients, signals, forms and back-ends", "why_tests_cant": "The documentation allows this combination but the tests never use it; the outcome differs per form and back-end, from an error to a silently different shape.", "anchors": ["philtorch/lti/filtering.py:lfilter", "philtorch/lti/filtering.py:_ssm_lfilter", "philtorch/lpv/filtering.py:lfilter", "philtorch/lpv/filtering.py:_torchlpc_lfilter", "philtorch/lpv/filtering.py:_ssm_lfilter", "philtorch/lpv/ssm.py:_ext_ss_recur"]}
{"id": "C59", "title": "Derivatives of whole filter and state-space calls", "statement": "The derivative of lti.lfilter(b, a, x) from rest in a direction (db, da, dx) is lfilter(b, a, dx) + lfilter(db, a, x) - lfilter([0, da], a, y), and its gradients for an output gradient g are: for x the filter with conjugated coefficients run backwards on g, for b and a the correlations of x and of the delayed -y with one backward all-pole filter of g. The derivative of lti.state_space and lpv.state_space in any direction is the linearised system driven by dA h + B dx + dB x, and its gradients with respect to A, B, C, D, x and zi are the products of the adjoint states l_n = A^H l_{n+1} + C^H g_n with states and inputs, in every shape combination and with every back-end.", "quantifier": "all rings of scalars, sizes, documented shapes, directions and output gradients (including a final-state gradient), back-ends; lfilter: four forms with real coefficients, df2 also complex; lpv: unroll factors as in C04, including the default", "why_tests_cant": "gradcheck compares with finite differences for a few random shapes; this is an exact identity for every size, direction and shape, and shows which terms a custom backward must contain.", "anchors": ["philtorch/lti/filtering.py:lfilter", "philtorch/lti/ssm.py:state_space", "philtorch/lpv/ssm.py:state_space"]}
{"id": "C60", "title": "Element types", "statement": "The compiled operators accept exactly arguments of one common supported dtype and return it, on the CPU and on CUDA, and their fake kernels announce it; linear_recurrence, state_space_recursion, state_space and lfilter accept the same combinations of dtypes whatever the back-end, the unroll factor and the form, and omitting zi is the same as passing zeros of the state's type; lpv.state_space does so on CPU and CUDA alike; diag_state_space and the diag_ssm back-end of lfilter accept and return the types that state_space and the ssm back-end accept and return.", "quantifier": "all combinations of int64, half, bfloat16, float, double and the complex types; all shapes, lengths, unroll factors, forms", "why_tests_cant": "The tests use one dtype per call; mixed types are accepted or rejected depending on device, unroll factor and form, and the wrong comparison in recur2.cu needs a CUDA device and a zi of another type.", "anchors": ["philtorch/csrc/recur2.cu:mat_recur_second_order_cuda_impl", "philtorch/csrc/lti_recur.cu", "philtorch/csrc/host_lti_recur.cpp", "philtorch/__init__.py", "philtorch/lti/recur.py:linear_recurrence", "philtorch/lti/ssm.py:state_space", "philtorch/lti/filtering.py:_ssm_lfilter", "philtorch/lpv/ssm.py:state_space", "philtorch/lti/ssm.py:diag_state_space", "philtorch/lti/filtering.py:_diag_ssm_lfilter"]}
{"id": "C61", "title": "Rounding errors are uniform over the back-ends", "statement": "In floating-point arithmetic with unit roundoff u, every back-end of the first-order recursion (CPU kernel, CUDA scan with any tree, lti.linear_recurrence and lpv.linear_recurrence with any unroll factor) returns at step n the exact value up to ((1+u)^(2(n+1)) - 1) times the recursion on absolute values, so any two of them agree up to twice that; the matrix recursions of order M (CPU, Helion with any tile sizes, the second-order CUDA scan) up to ((1+u)^((M+1)(n+1)) - 1) times the recursion on absolute values; for a stable coefficient the error of the CPU kernel is bounded uniformly in time.", "quantifier": "all arithmetics with relative error u per operation (binary floating point with p bits is one), all sizes, shapes, unroll factors, scan trees, tile sizes and inputs", "why_tests_cant": "The tests compare two back-ends with a fixed tolerance on a few random signals; whether the tolerance holds for every input, length and scan order cannot be sampled.", "anchors": ["philtorch/lti/recur.py:linear_recurrence", "philtorch/lpv/recur.py:linear_recurrence", "philtorch/csrc/lti_recur.cu", "philtorch/csrc/recur2.cu", "philtorch/csrc/host_lti_recur.cpp", "philtorch/_helion.py", "tests/test_recur_ext.py"]}
{"id": "C62", "title": "Rounding errors of a state-space model", "statement": "In floating-point arithmetic with unit roundoff u, state_space_recursion returns at step n the exact state of order M up to ((1+u)^(2M(n+1)) - 1) times the recursion on absolute values, for every unroll factor, out_idx and back-end; state_space returns y[n] up to ((1+u)^(2Mn + M + K + 1) - 1) times the model run on absolute values (K the number of input features) and the final state up to ((1+u)^(2MN + K) - 1) times the same, so any two unroll factors or back-ends agree up to twice that, but not bit for bit.", "quantifier": "all arithmetics with relative error u per operation, all back-end configurations, sizes, shapes of A, B, C, D, zi, unroll factors, out_idx and inputs", "why_tests_cant": "The tests compare the unrolled and the looped recursion with a fixed tolerance on a few random systems; how the error depends on the block size, the order and the length cannot be sampled, and blocking multiplies powers of A that can be much larger than the state.", "anchors": ["philtorch/lti/ssm.py:state_space_recursion", "philtorch/lti/ssm.py:state_space", "philtorch/mat.py:matrix_power_accumulate", "tests/test_lti_ssm.py"]}
{"id": "C63", "title": "Contractive systems stay bounded and forget their initial state", "statement": "If the row sums of |A| are at most r, those of |B|, |C|, |D| at most be, ga, de, the inputs at most c and the initial state at most s, where r s + be c <= s (so s = be c / (1 - r) when r < 1), then every state returned by lti.state_space and lpv.state_space is at most s and every output at most ga s + de c; two runs from initial states at distance d differ at time n by at most ga r^n d.  The same for linear_recurrence (|a| <= r), lti.lfilter in every form (sum |a_k| <= r, sum |b_k| <= be), lpv.lfilter in direct form II, lpv.allpole, comb_filter and fir.  The bound is attained, fails for r = 1, and turns the rounding bound of C62 into an explicit one.", "quantifier": "all ordered fields and absolute values on the scalars (real, or |re| + |im| of complex numbers), all lengths, sizes, shapes, forms, back-ends and inputs, all unroll factors (lpv.state_space: those of C04), wherever the function computes its recursion at all (C19, C24, C29)", "why_tests_cant": "Boundedness is a statement about signals of every length and every bounded input; a finite run of a filter, however long, neither shows that it stays bounded nor how fast it forgets its start.", "anchors": ["philtorch/lti/ssm.py:state_space", "philtorch/lpv/ssm.py:state_space", "philtorch/lti/recur.py:linear_recurrence", "philtorch/lti/filtering.py:lfilter", "philtorch/lti/filtering.py:comb_filter", "philtorch/lti/filtering.py:fir", "philtorch/lpv/filtering.py:lfilter", "philtorch/lpv/filtering.py:allpole"]}
{"id": "C64", "title": "The exact domains of fir, lpv.fir, lpv.allpole, comb_filter, diag_shift, lfiltic and polydiv", "statement": "fir returns the convolution and the next state exactly when (direct form) no state is passed or there are two or more taps, and (transposed form) there are two or more taps and, with a state, the signal is at least as long as the order.  lpv.fir in direct form always does, transposed exactly with two or more taps (no state) or a signal at least as long as the order (state).  lpv.allpole: direct without state always, with state exactly for orders from 1 to the length; transposed without state exactly for orders from 1 to the length, with state exactly for orders up to the length.  comb_filter returns the right output exactly for delay one or with the compiled extension, and the right state exactly with the extension and a delay from two to the length.  diag_shift discarding the end is right exactly with two or more columns or a positive offset.  polydiv returns exactly when the dividend is at least as long as the divisor; lfiltic raises whenever there is one feed-forward tap.  Outside the domains the calls raise or return the (described) wrong shapes.", "quantifier": "all commutative rings with conjugation (fields for polydiv), all batch sizes, lengths >= 1, tap counts >= 1, orders, delays >= 1, both forms, with and without state, all back-end configurations (comb_filter), all values", "why_tests_cant": "An exact domain is an equivalence over all sizes: the tests of the project use one or two orders and long signals, and no finite number of sizes shows that nothing else goes wrong.", "anchors": ["philtorch/lti/filtering.py:fir", "philtorch/lti/filtering.py:comb_filter", "philtorch/lti/filtering.py:lfiltic", "philtorch/lpv/filtering.py:fir", "philtorch/lpv/filtering.py:allpole", "philtorch/lpv/utils.py:diag_shift", "philtorch/poly.py:polydiv"]}
{"id": "C65", "title": "Pulse responses, fractions, state coordinates and exponential signals", "statement": "From rest lti.lfilter is convolution with its own pulse response, and that response times the denominator is the numerator. Two lfilter calls (any orders, forms, back-ends) agree on all signals of length N exactly when b1*(1,a2) and b2*(1,a1) have the same first N coefficients. The sum of two filters is the filter (b1 a2 + b2 a1)/(a1 a2), and for b_0 = 1 the filter with numerator (1,a) and denominator b undoes the filter b/a. lti.state_space returns y_n = C A^n h_0 + sum_j H_j x_{n-j} with H_0 = D, H_j = C A^(j-1) B; two systems of any orders and argument shapes agree from rest on all signals of length N exactly when H_0..H_{N-1} agree. Changing the state coordinates (A' T = T A, B' = T B, C = C' T, T possibly rectangular, and time-varying for lpv.state_space) changes neither the output nor, up to T, the final state. On x_n = c^n v started in h_0 with c h_0 = A h_0 + B v, state_space returns c^n (C h_0 + D v) and the state c^N h_0.", "quantifier": "all commutative rings with conjugation, all batch sizes and lengths >= 1, all numerator and denominator lengths with order >= 1, the four forms (complex coefficients as each form uses them, C19), all documented shapes of the state-space arguments, all unroll factors (lpv: those of C04) and consistently installed back-ends", "why_tests_cant": "The equivalences quantify over all signals and all pairs of systems; a test compares one signal through two given systems in floating point and cannot show that equal fractions always agree or that different ones must differ.", "anchors": ["philtorch/lti/filtering.py:lfilter", "philtorch/lti/ssm.py:state_space", "philtorch/lpv/ssm.py:state_space"]}
{"id": "C66", "title": "Rounding errors of fir and lfilter", "statement": "In floating-point arithmetic with unit roundoff u, lti.lfilter from rest returns y[n] up to ((1+u)^(2M(n+1) + M + 2) - 1) times the output of the filter with coefficients |b|, -|a| on |x| (M the order), in each of the four forms, for every unroll factor and back-end; so any two forms, unroll factors or back-ends agree up to twice that, but not bit for bit. With an initial state, df2 and tdf2 return the output up to 2Mn + M + 4 and the final state up to 2MN + 3 roundings of the same kind, magnitudes with |z|. fir of order M returns each sample up to M + 1 roundings (M + 2 with a state) of the convolution of |b| with |x|; its direct form passes the past inputs on exactly.", "quantifier": "all arithmetics with relative error u per operation, all numerator and denominator lengths with order >= 1, shared or per-batch coefficients, batch sizes, lengths, values, unroll factors and consistently installed back-ends", "why_tests_cant": "The tests compare each form with scipy on a few random stable filters with a fixed tolerance; the growth of the error with order, length and the size of the coefficients, and the gap between the forms, cannot be sampled.", "anchors": ["philtorch/lti/filtering.py:fir", "philtorch/lti/filtering.py:lfilter", "philtorch/lti/filtering.py:_ssm_lfilter", "tests/test_lti_lfilter.py"]}
{"id": "C67", "title": "Gradients of calls with initial and final states", "statement": "For lti.lfilter and lpv.lfilter in direct form II called with an initial state, the gradients of any output gradient g and final-state gradient gz are given by one call of the library: tdf2 with the coefficients in reversed time order, on g backwards, started from gz; its output backwards is the gradient of x, its final state the gradient of zi, the gradient of b[n,k] is g[n] conj(w[n-k]) and that of a[n,k] is -gx[n] conj(w[n-1-k]), w the inner signal (summed over n for constant coefficients). The same holds for fir and lpv.fir (w = x, transposed fir) and lpv.allpole (w = y, transposed allpole). For comb_filter and linear_recurrence the same filter with conjugated coefficient run backwards gives all gradients, those of the past outputs and of the initial value included. The derivative of lpv.lfilter in a direction is lfilter(b,a,dx,dzi) + lfilter(db,a,x,zi) - lfilter(b,a,e) with e = lfilter([0,da],a,x,zi), final state likewise.", "quantifier": "all commutative rings with conjugation, batch sizes, lengths, orders, delays, shared and per-batch coefficients, all tangents and output gradients, all unroll factors and consistently installed back-ends; fir, lpv.fir and lpv.allpole: orders from 1 to the length (C64); lpv.lfilter: both back-ends, away from the batch/time confusion of C14, torchlpc with a final state for at most as many denominator coefficients as samples; the formula for the derivative of lpv.lfilter in a direction: numerators of at most one coefficient more than the denominator", "why_tests_cant": "gradcheck compares with finite differences at single random points; the identity has to hold for every argument and for every split of the gradient between output and state.", "anchors": ["philtorch/lti/filtering.py:lfilter", "philtorch/lti/filtering.py:fir", "philtorch/lti/filtering.py:comb_filter", "philtorch/lti/recur.py:linear_recurrence", "philtorch/lpv/filtering.py:lfilter", "philtorch/lpv/filtering.py:fir", "philtorch/lpv/filtering.py:allpole"]}
{"id": "C68", "title": "Element types of filters with states", "statement": "Exactly these combinations of element types are accepted, with these results: direct fir and lpv.fir need b of the least type including zi and x; transposed fir needs x of b's type and any zi, and returns the least type including zi and b; lfilter and lpv.lfilter return a's type d and need zi of type d, b included in d, x of type d in df2 and included in d in tdf2 if zi is given, and all types equal in df1 and tdf1; filtfilt needs a type d of torch.linalg for a, b included in d, x of type d in df2 and included in d in tdf2; lfilter_zi, lfiltic and comb_filter correspondingly. The state a call returns is accepted by the next call and has the type of the results from then on. lpv.lfilter accepts what lfilter accepts, except integers outside tdf2; its torchlpc back-end returns the type of arguments of one type. The forms of fir, of lfilter and the back-ends of lpv.lfilter do not accept the same types, and omitting zi is not the same as passing zeros.", "quantifier": "all combinations of int64, half, bfloat16, float, double and the complex types; all shapes, lengths, orders, unroll factors and forms; lpv.lfilter through the extension: orders other than one (torchlpc), and other than two on CUDA (recur2.cu, C60); the types torchlpc accepts are a parameter", "why_tests_cant": "The tests use one dtype per call; the accepted combinations depend on the form, on whether zi is given and on the back-end.", "anchors": ["philtorch/lti/filtering.py:fir", "philtorch/lti/filtering.py:_ssm_lfilter", "philtorch/lti/filtering.py:lfiltic", "philtorch/lti/filtering.py:lfilter_zi", "philtorch/lti/filtering.py:filtfilt", "philtorch/lti/filtering.py:comb_filter", "philtorch/lpv/filtering.py:fir", "philtorch/lpv/filtering.py:allpole", "philtorch/lpv/filtering.py:_ssm_lfilter", "philtorch/lpv/filtering.py:_torchlpc_lfilter"]}
{"id": "C69", "title": "Rounding errors of the parameter-varying recursion and state-space model", "statement": "In floating-point arithmetic with unit roundoff u, lpv.state_space_recursion with order M returns the state after n+1 steps up to ((1+u)^(2M(n+1)) - 1) times the state of the recursion with |A|, |x|, |zi|, for every unroll factor for which the blocks are right. lpv.state_space returns the output at time n up to 2Mn + M + K + 1 such roundings (K input features) and the final state up to 2MN + K, the constants of the time-invariant model. So two unroll factors or two of the library's own back-ends agree up to twice that, but not bit for bit.", "quantifier": "all arithmetics with relative error u per operation, all orders >= 1, batch sizes, lengths, unroll factors allowed by C04, shared or per-batch matrices, presence and shapes of B, C, D, zi; the library's own back-ends (torchlpc and ParaRNN are external)", "why_tests_cant": "The tests compare unroll factors on short random sequences with a fixed tolerance; how the gap grows with length, order and the size of the matrices cannot be sampled.", "anchors": ["philtorch/lpv/ssm.py:state_space_recursion", "philtorch/lpv/ssm.py:_recursion_loop", "philtorch/lpv/ssm.py:_ext_ss_recur", "philtorch/lpv/ssm.py:state_space"]}
{"id": "C70", "title": "Rounding errors of lpv.fir and lpv.lfilter", "statement": "In floating-point arithmetic with unit roundoff u, lpv.fir with M+1 taps per sample returns the exact sum up to M+1 roundings, that is up to ((1+u)^(M+1) - 1) times the same sum with |b|, |x|, |zi| (one more in transposed form with a state); in direct form the new state is exact. lpv.lfilter with the state-space back-end returns each form's exact output at time n up to 2M(n+1) + M + 2 roundings, relative to the form with |b|, -|a|, |x|; direct form II and its transpose with a state up to 2Mn + M + 4, and the final state up to 2MN + 3. So two configurations or unroll factors agree up to twice that, but not bit for bit.", "quantifier": "all arithmetics with relative error u per operation, all orders >= 1, batch sizes, lengths, shared or per-batch coefficients, unroll factors allowed by C12, states where the form has one; the library's own back-ends", "why_tests_cant": "The tests compare the forms on short random signals with a fixed tolerance; the growth of the error with time, order and the size of the time-varying coefficients cannot be sampled.", "anchors": ["philtorch/lpv/filtering.py:fir", "philtorch/lpv/filtering.py:lfilter", "philtorch/lpv/filtering.py:_ssm_lfilter", "philtorch/lpv/ssm.py:state_space"]}
{"id": "C71", "title": "Streaming and causality bit for bit without unrolling", "statement": "Whatever the arithmetic does (no law of addition or multiplication is assumed, only that a library product sums in an order independent of the number of rows and samples), state_space with unroll_factor 1 on a sequential back-end is one state machine per row: filtering a signal in two chunks, passing the state on, returns exactly the outputs and the final state of filtering it in one call; and sample n of a row depends only on that row's state and samples 0..n, not on other rows and not on the signal's length. The same holds of fir in direct form and of lfilter in direct form II and its transpose with unroll_factor 1; transposed fir from rest and lfilter in direct form I and its transpose, also with the default unroll factor, are causal row by row in the same sense. With the default unroll factor or with unroll_factor 2 chunks differ from the whole in floating point, with the default factor the output also depends on the length of the signal, and transposed fir in chunks differs from the whole.", "quantifier": "all operations on all carriers, all orders >= 1, batch sizes, chunk lengths >= 1, coefficient shapes, states; CPU with or without the extension, pure Python on CUDA, Helion from order 3 on", "why_tests_cant": "Tests compare chunked with whole filtering up to a tolerance; equality bit for bit for all signals, lengths and floating-point formats cannot be sampled.", "anchors": ["philtorch/lti/ssm.py:state_space", "philtorch/lti/ssm.py:state_space_recursion", "philtorch/lti/filtering.py:fir", "philtorch/lti/filtering.py:lfilter"]}
{"id": "C72", "title": "Sequential back-ends agree bit for bit", "statement": "With unroll_factor 1, state_space and lfilter (all four forms) return exactly the same outputs and final states from the Python loop, the compiled CPU kernel and the Helion kernel (order 3 and above), given only that multiplication commutes (as in floating point) and that torch.addmm adds to the input a product summed left to right, as the kernels do; no associativity, distributivity or neutral element is needed, and between back-ends other than the CPU kernel not even commutativity. The CUDA scan of order 2 reassociates and gives other numbers.", "quantifier": "all operations on all carriers with commutative multiplication, all orders >= 1, batch sizes, lengths, coefficient shapes, states", "why_tests_cant": "Tests compare back-ends with a tolerance, on the machine at hand; that the kernels perform the same operations in the same order for every input is not observable by sampling.", "anchors": ["philtorch/lti/ssm.py:state_space", "philtorch/lti/ssm.py:_ext_ss_recur", "philtorch/lti/filtering.py:lfilter", "philtorch/csrc/host_lti_recurN.cpp", "philtorch/_helion.py"]}
{"id": "C73", "title": "lpv.state_space without unrolling, bit for bit", "statement": "With unroll_factor 1 and any sequential back-end (Python loop, compiled CPU kernel, Helion from order 3 on), every output and the final state of lpv.state_space is one fixed sequence of operations: the products of a row summed left to right, the drive B x (or x, or x in the first state) added, C h, then D x. It does not depend on the shape (shared, per sample, per row, per row and sample) in which B, C and D are passed. Hence two chunks with the state passed on are the whole signal bit for bit, sample n depends only on matrices and samples up to n of its row, the back-ends agree, and with constant matrices the result equals that of lti.state_space bit for bit. With unrolling (also by default) other bits come out.", "quantifier": "all operations with commutative multiplication and involutive conjugation (no other law), all state sizes >= 1, batch sizes, lengths, accepted shapes of A, B, C, D, states", "why_tests_cant": "The dispatch on shapes has about forty branches, each with its own product (mul, matmul, vecdot with conjugation); that all perform the same operations for every input cannot be sampled, and tests compare with a tolerance.", "anchors": ["philtorch/lpv/ssm.py:state_space", "philtorch/lpv/ssm.py:_recursion_loop", "philtorch/lpv/ssm.py:_ext_ss_recur", "philtorch/lti/ssm.py:state_space"]}
{"id": "C74", "title": "linear_recurrence without unrolling, bit for bit", "statement": "When the signal is run sample by sample (unroll_factor 1, or at least the length), every output of lti.linear_recurrence is a*y + x of the previous output y, every output of lpv.linear_recurrence is x + y*a, and every output of the CPU kernel is x + a*y, as one fixed sequence of operations in whatever arithmetic. Hence a chunk started from the last output of the one before continues it bit for bit, sample n of a row depends only on that row's coefficients, initial value and samples up to n, and if addition and multiplication commute (as in floating point) the three return the same bits for constant coefficients. With a smaller unroll factor a sample also depends on the length of the signal.", "quantifier": "all operations (no law, commutativity only where stated), all batch sizes, lengths, coefficient shapes, signals, unroll factors that are 1 or at least the length", "why_tests_cant": "Tests compare with a tolerance, so an implementation that reassociates passes; equality bit for bit for every input and length cannot be sampled.", "anchors": ["philtorch/lti/recur.py:linear_recurrence", "philtorch/lpv/recur.py:linear_recurrence", "philtorch/csrc/host_lti_recur.cpp"]}
{"id": "C75", "title": "lpv.lfilter in direct form II and its transpose without unrolling, bit for bit", "statement": "With unroll_factor 1 and a sequential back-end, lpv.lfilter in direct form II and in its transpose performs one fixed sequence of operations per sample: the companion matrix of the current a times the state, b_{m+1} - b_0 a_m as input or output weights, b_0 x added last. Hence in whatever arithmetic with commutative multiplication: two chunks, the second started in the final state of the first, are the whole bit for bit; sample n of a row depends only on that row's state and on its signal and coefficients up to n; the back-ends and the shapes in which coefficients are passed make no difference; and for constant coefficients lti.lfilter returns the same bits. Unrolled by two the outputs differ.", "quantifier": "all additions and subtractions, all commutative multiplications, all orders, batch sizes, lengths, coefficients, signals, states; unroll_factor 1, coefficient shapes that are read as meant (C14)", "why_tests_cant": "The tests compare lti and lpv, chunks and whole signals with a tolerance and on a few random inputs; equality of all bits for every coefficient sequence cannot be sampled.", "anchors": ["philtorch/lpv/filtering.py:lfilter", "philtorch/lti/filtering.py:lfilter", "philtorch/lpv/ssm.py:state_space", "philtorch/lti/ssm.py:state_space"]}
{"id": "C76", "title": "Sign changes and powers of two pass through the filters bit for bit", "statement": "Let s be a map of the numbers with s(0) = 0, s(a + b) = s(a) + s(b) and s(a b) = a s(b) = s(a) b for the operations as rounded. Then both linear_recurrence run sample by sample, both state_space and both lfilter (direct form II and its transpose) without unrolling on a sequential back-end return, for the signal and initial state mapped by s, exactly the output and final state mapped by s. In binary floating point of any precision (round to nearest even, no overflow or underflow) multiplication by plus or minus a power of two is such a map; multiplication by 3 is not, and the filters are not homogeneous under it.", "quantifier": "all operations with commutative products, all maps s with the stated laws (all signs and integer exponents, all precisions), all orders, shapes, batch sizes, lengths, coefficients, signals, states; unroll_factor 1", "why_tests_cant": "Tests of linearity use a tolerance; that no rounding anywhere depends on the scale or the sign is a statement about all inputs and all bits.", "anchors": ["philtorch/lti/recur.py:linear_recurrence", "philtorch/lpv/recur.py:linear_recurrence", "philtorch/lti/ssm.py:state_space", "philtorch/lpv/ssm.py:state_space", "philtorch/lti/filtering.py:lfilter", "philtorch/lpv/filtering.py:lfilter"]}
{"id": "C77", "title": "lpv.fir bit for bit", "statement": "Whatever the rounding, the direct form of lpv.fir computes each output as one sum of products over the window that ends at that sample, from the oldest sample on, and returns the last samples as state. Hence, bit for bit: a signal cut into two chunks of any lengths, also shorter than the order, gives the outputs and final state of the whole call; an output depends on no later sample and no later taps, nor on the length or the batch (in the transposed form without state too); for constant taps lti.fir and lpv.fir return the same outputs and states if products commute; sign changes and powers of two pass through. The transposed form does not stream bit for bit, and for constant taps it differs from the transposed lti.fir in the last bit.", "quantifier": "all operations (no law of arithmetic; agreement assumes commuting products, scaling the laws of the scaling map), all orders, batch sizes, lengths, cuts, taps, signals, states", "why_tests_cant": "Tests compare with tolerances; independence of the grouping of sums from length, cut and batch is a statement about all inputs.", "anchors": ["philtorch/lpv/filtering.py:fir", "philtorch/lti/filtering.py:fir"]}
{"id": "C78", "title": "lpv.lfilter with the torchlpc back-end, bit for bit", "statement": "Whatever the rounding, lpv.lfilter with backend='torchlpc' computes in direct form II the inner signal by the recursion on its last values and each output as one sum over the window of inner values, and in direct form I the same two steps in the other order from rest. Hence, bit for bit: in direct form II a signal cut into two chunks, each at least as long as the denominator, gives the outputs and the final state of the whole call; in both forms an output depends on no later sample, no later coefficients, not on the length, the batch, the unroll factor or the extension; sign changes and powers of two pass through direct form II. The ssm back-end returns different bits.", "quantifier": "all operations (no law of arithmetic; the scaling part assumes the laws of the scaling map), all orders, batch sizes, lengths, cuts, coefficient shapes, signals, states", "why_tests_cant": "Tests compare with tolerances; equality of every bit for all inputs cannot be sampled.", "anchors": ["philtorch/lpv/filtering.py:_torchlpc_lfilter", "philtorch/lpv/filtering.py:allpole", "philtorch/lpv/filtering.py:fir"]}
{"id": "C79", "title": "Zero coefficients at the end change no bit", "statement": "If zeros are exact (u + 0 = u, 0 u = u 0 = 0, 0 - 0 = 0; true of every arithmetic with relative rounding errors), appending zero coefficients to b and a, also beyond the order, changes no bit of the output of lti.lfilter and lpv.lfilter (ssm back-end without unrolling, direct form II and its transpose), of lpv.lfilter with the torchlpc back-end in direct form II, and of lpv.fir; the final state of the shorter call is the beginning of that of the longer call. The further initial states must be zero in the transposed form, and may be anything in the others.", "quantifier": "all operations with exact zeros (ssm back-end: commuting products), all numbers of coefficients and of appended zeros, batch sizes, lengths, signals, states", "why_tests_cant": "Tests compare with tolerances and a few orders; that the summation order does not depend on the number of coefficients is a statement about all of them.", "anchors": ["philtorch/lti/filtering.py:lfilter", "philtorch/lpv/filtering.py:_ssm_lfilter", "philtorch/lpv/filtering.py:_torchlpc_lfilter", "philtorch/lpv/filtering.py:fir"]}
{"id": "C80", "title": "filtfilt does exactly two sequential passes, bit for bit", "statement": "lti.filtfilt of a 1-D or 2-D signal (ssm back-end without unrolling, direct form II and its transpose) carries out exactly the operations of two sequential passes of the filter, forward over the extended signal and backward over the result, each starting from the steady state of lfilter_zi times the first sample of the pass. Hence with shared coefficients equal rows give equal outputs bit for bit, in any batch, or on their own without a batch dimension, and with any two sequential back-ends; and every map of the numbers that commutes with the operations (sign changes, powers of two) passes through.", "quantifier": "all operations with commuting products, all solvers, coefficients, padding modes and lengths, batch sizes, signals", "why_tests_cant": "Tests compare with scipy within tolerances on a few signals.", "anchors": ["philtorch/lti/filtering.py:filtfilt", "philtorch/lti/filtering.py:lfilter_zi"]}
