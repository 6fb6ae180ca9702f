# Formal model of philtorch

Rocq (Coq 8.16.1) development in `rocq/theories`, logical root `Verif`.
It models the Python and C++ sources of philtorch as total, computable Gallina
functions, states each property in `properties.jsonl` against small separate
specifications, and proves or refutes it.

## What is modelled and how

* **Scalars** (`Scalar.v`).  The tensors and the code are defined over bare operations
  (`cops`: zero, one, plus, times, minus, negation, conj - no laws).  A record `cring`
  adds the laws of a commutative ring with an
  involutive ring automorphism `conj`.  Apart from C61, C62, C66, C69-C80, every theorem is for every such ring, so
  it covers exact real and complex arithmetic (identity / complex conjugation),
  the integers (int64 without overflow as `Z`, with overflow as `Z/2^64`), and
  dual numbers, which carry the derivative theorems.  Division uses an extension
  `cfield`.  Floating point is the same code over rounded operations (`flops` in
  `SpecRound.v`); C61, C62, C66, C69 and C70 bound the rounding errors of the recursions, of `state_space`, `fir`, `lfilter`, `lpv.state_space`, `lpv.fir` and `lpv.lfilter` there; C71 needs no law of arithmetic at all, C72 only that products commute, C73 that products commute and that conjugating twice does nothing, C74 no law except commutativity where stated, C75 only that products commute, C76 that and the stated laws of the scaling map; in C77 only the agreement with lti.fir and the scaling need them.  Dtype promotion and devices are **not**
  modelled in the value model (except as flags that select a back-end).
* **Mini-torch** (`Tensor.v`).  A tensor is a shape and an index function.  The
  torch operations that the code uses are defined on it, with broadcasting,
  Python slice/index rules (so `y[:, :-0]` is empty) and an error monad `res`
  for the exceptions the code can raise.
* **Code** (`M_*.v`).  One Gallina function per Python function, with the file and
  line range in a comment, in the order of the Python statements.
* **Specifications** (`Spec.v`).  Difference equations and state recurrences as
  plain recursions over functions `nat -> R`; nothing from the model is used.
* **Proofs** (`P_*.v`) and the statements with their axioms and non-vacuity
  examples (`Properties_*.v`).

## Per property

| id | what is modelled | how it is proved |
|----|------------------|------------------|
| C01 | `lti/recur.py` loop and blocked recursion | loop invariant; strong induction on length for the blocked recursion |
| C02 | `lpv/recur.py` | as C01, with products of coefficients |
| C03 | `lti/ssm.py` loop and blocked recursion, `mat.py` powers | matrix-power algebra, strong induction on the length |
| C04 | `lpv/ssm.py` | right on all inputs if and only if the factor is 1, 2, at least N or prime + 1 (`C04_unroll_factors`, orders >= 2, every back-end); for trajectories of commuting matrices (order 1, constant A) if and only if the factor minus one is not a product of three numbers >= 2 (`C04_unroll_commuting`); proved from an exact description (`P_LpvBlk.blk`) of what the blocked recursion computes |
| C05 | `mat.py:matrices_cumdot` | right on all inputs if and only if the length is 1 or prime (`C05_lengths`, sizes >= 2, rings with 1 <> 0); commuting matrices: if and only if the length is not a product of three numbers >= 2 (`C05_commuting`); what a wrong position holds (`C05_composite_position`); exact description for every length `P_Cumdot.cumd` |
| C06 | `mat.py:matrix_power_accumulate` | induction on the factor list |
| C07 | `csrc/host_*.cpp` as steps on a flat memory | loop invariants; interleaving theorem from disjoint footprints |
| C08 | scan formulation of `csrc/host_recur2.cpp`, `csrc/host_recurN.cpp`, `csrc/*.cu` | associativity, induction on scan trees |
| C09 | back-end flags as an `env` record | case analysis on flags + C03/C07; counterexample for Helion without extension |
| C10 | same for `lpv/ssm.py`, ParaRNN as an oracle with its documented spec | as C09 |
| C11 | `lti/ssm.py:state_space`, `_ssm_C_D` | stage lemmas over an inductive relation of documented shapes |
| C12 | same | counterexamples for coinciding sizes |
| C13 | `lpv/ssm.py:state_space` | as C11, under the guard of C04 |
| C14 | same | counterexample for batch = length |
| C15 | as C11, C21-C23 | from functional correctness |
| C16-C18 | every filtering entry point: `state_space`, `linear_recurrence`, `lfilter`, `fir`, `allpole`, `comb_filter`, `filtfilt`, `diag_state_space`, `cubic_coeff`, `cubic_spline` | extensionality and linearity of the specification of each; for lpv.state_space with a bad unroll factor, of what it computes instead (P_LpvSs2) |
| C19 | `lti/filtering.py:lfilter` | state-space realisations satisfy the difference equation |
| C20 | same | counterexample over Gaussian integers |
| C21 | `lti/filtering.py:fir` | direct; counterexamples for edge sizes |
| C22 | `lpv/filtering.py:fir` | direct; counterexample for one tap |
| C23 | `lpv/filtering.py:allpole`, torchlpc as an oracle with its documented spec | uniqueness of the recurrence |
| C24 | `lpv/filtering.py` | realisations; counterexample for tdf1 |
| C25 | `lpv/utils.py` | index arithmetic |
| C26-C28 | `lfiltic`, `lfilter_zi`, `filtfilt` with `linalg.solve` as an oracle | realisation algebra |
| C29 | `comb_filter` | polyphase decomposition; counterexamples |
| C30 | `poly.py` | loop invariant |
| C31-C34 | `mat.py`, `diag_state_space`, `_diag_ssm_lfilter`; eig/inv/solve oracles | change of basis |
| C35 | the three `jvp` bodies | eps part of the forward operator on dual numbers, any length (also 0) |
| C36 | the three `backward` bodies, the registered backward functions | discrete adjoint identity by induction; counterexamples for empty signals and Helion without extension |
| C37 | `register_fake` bodies | what an accepted call says about the shapes, and conversely; counterexamples where the kernels check less |
| C38-C39 | `lti/interp.py` over a field with r^2+4r+1=0 (C39: ordered field) | recurrences; the grid size of `torch.arange` in IEEE double arithmetic (`SpecFloat`); examples in Q(sqrt 3) |
| C40-C42 | `prototype/*`, `utils.py` | induction |
| C43 | README example | induction |
| C44 | kernel offsets in 32-bit wraparound | bound + counterexample |
| C45, C46 | argument checks, squeezing (`Properties_Args.v`, `Properties_Bank.v` for mismatched batches) | case analysis; counterexamples where a mismatch is not reported (df2 with a batch of b, lpv.state_space through the kernel, comb_filter zi) |
| C52 | host kernels as loops over flat buffers (`M_Kernels.v`), operator checks | the kernels depend only on, and change only, entries below the sizes given, and those sizes are the least; counterexamples for accepted calls with a smaller A; both `state_space` functions with matching sizes are determined by the entries inside their arguments (`Properties_Kernels3.v`). A read whose value cannot influence the result is not seen by this statement |
| C47 | `prototype/nl.py`, the list of intermediates | loop invariant; counterexample |
| C51 | `prototype/signal.py:172-373` (`M_Signal.v`) | Taylor coefficients of N/D at the pole (`P_Series.v`, `P_Taylor.v`) give the repeated residues, then the identity of C48; conjugation for the pairs; counterexamples over the complex rationals |
| C53 | `prototype/signal.py:56-78` (`M_Signal.v`) | both modes of `_compute_factors`; each factor is the formal product of the remaining linear factors |
| C54 | the three `backward` bodies over dual numbers, with forward + jvp for the inner `apply` (`M_Autograd2.v`) | the inner call computes the recurrence over dual numbers (C35), so C36 applies over that ring; symmetry by exchanging the infinitesimals of twice dual numbers |
| C55 | as C01, C11, C19, C21, C29 | delay in `dly`; the delayed output solves the equation of the delayed input, and the solution is unique (`P_System.v`) |
| C56 | as C19, C21 | spec in `SpecSystem.v` (products of coefficient vectors); FIR operators commute and a monic one is injective |
| C57 | as C11, C13, C19, C21-C24, C29 | inner products and time reversal in `SpecSystem.v`; telescoping sum over <l, h> for state-space models (`P_Adjoint.v`), df2/tdf2 are conjugate transposes; convolution algebra for the rest |
| C58 | as C19, C24, with a filter batch P and a signal batch B | the state does not depend on b, so df2 broadcasts the output equation to (B, N, P) (`P_Bank.v`); every other check fails; `torchlpc` expands the signal, so its proofs go through with one signal per batch row |
| C59 | as C11, C13, C19, run on dual numbers (C35, C54 relate the custom autograd Functions to that) | spec in `SpecDeriv.v`: linearised system, adjoint states, outer products; `P_Deriv.v` (uniqueness of the difference equation over dual numbers, convolution adjoints), `P_Deriv2.v` (telescoping sum of <l_n, dh_n>) |
| C60 | dtypes only, through the same lines (`M_Dtype.v`, `M_Dtype2.v`): operators, `linear_recurrence`, `state_space_recursion`, `state_space` (lti and lpv), `diag_state_space`, `_ssm_lfilter`, `_diag_ssm_lfilter` | promotion is the least upper bound of an inclusion order (`SpecDtype.v`); exact acceptance conditions by case analysis and induction over the unrolled recursion; the tables that choose an operation from the shapes are proved to choose the operation of the value model; counterexamples |
| C61 | as C01, C06-C09 and C35's forward, over rounded operations | `P_Round.v`: a calculus of "at most k roundings deep" (sums, products, powers); the kernels and every scan tree by induction (`P_Round2.v`), the blocked recursions by repeating the proof of C01/C02 for a relation instead of an equality (`P_Round3.v`); `FloatQ.v` proves that p-bit binary floating point meets the contract |
| C62 | as C03, C04 over rounded operations | the powers of A by `matrix_power_accumulate` are related to exact powers for any order of multiplication (`P_Round4.v`, `mpa_raw`); blocks cost 2M roundings per step, not more than a loop up to the factor 2M/(M+1) (`ssr_fuel_rel`); errors of B x pass through the exact recursion on perturbed inputs (`P_Round5.v`, `state_pert`, `bnd_comp`).  Inside Helion the inner recursion of a blocked run takes operands that already carry roundings (`ext_rel`) |
| C63 | consequences of C01, C02, C11, C13, C19, C21, C23, C24, C29, C62 | absolute values with values in an ordered field (`SpecStable.v`); an invariant ball for each recursion by induction (`P_Stable.v`); the state-space and filter theorems give the recursion, so no new model is needed |
| C64 | `fir`, `lpv_fir`, `lpv_allpole`, `comb_filter`, `diag_shift`, `lfiltic`, `polydiv` (as modelled for C21-C26, C29, C30) | `returns`: an output of shape (B, N) with the specified values and a state of shape (B, M) exactly when one was passed; inside the domain the theorems of C21-C30, outside symbolic execution of the model on views (`P_Exact.v`) and comparison of shapes |
| C65 | `lfilter_ssm`, `state_space`, `lpv_state_space` (as modelled for C11, C13, C19) | `SpecResponse.v`: pulse, convolution, Markov parameters, `carries` (change of coordinates), `cross` (b1 times (1,a2)); from C19, C11 and C13 by the algebra of causal filters: monic convolutions are injective, a filter commutes with convolution |
| C66 | `fir`, `lfilter_ssm` over rounded operations | views of the convolutions over bare operations, the coefficient vector b[1:] - b[0] a carries two roundings and is passed through the state-space bound of C62 (`P_Round6.v`, `ss_y_comp`); the absolute value of a companion matrix is the companion matrix of -|a|, so the magnitude is again a filter; df1/tdf1 compose the bounds of fir and of the recursion (`P_Round7.v`) |
| C67 | `lfilter_ssm`, `lpv_lfilter`, `fir`, `lpv_fir`, `lpv_allpole`, `comb_filter`, `linear_recurrence` over dual numbers | over dual numbers direct form II is the filter on x together with the same filter on dx - sum da w (`P_Deriv3.v`, `vdf2_z_dual`); the adjoint of C57 turns the pairing with (g, gz) into one call of the transposed form; fir, allpole are special cases; comb and scalar recurrences by the adjoint of the difference equation with the past as an additional input.  The torchlpc back-end is differentiated through its contract (M_Ext) |
| C68 | dtypes only (`M_Dtype3.v`): `fir`, `_ssm_lfilter` with zi, `lfiltic`, `lfilter_zi`, `filtfilt`, `comb_filter`, `lpv.fir`, `lpv.allpole`, both back-ends of `lpv.lfilter` | equivalences by unfolding, from C60; "least type including" is stated with the inclusion order of `SpecDtype.v`; torchlpc's types are a section variable of the model; no theorem determines the order in which `lpc_y` (ssm back-end, one state) passes the types of `x` and `a` to it (a surviving mutant in `seeded/LOG.jsonl`) |
| C69 | `lpv_state_space_recursion`, `lpv_state_space` over rounded operations | the unrolled recursion relates block products and block sums to exact ones by a relation closed under the operations (`P_Round8.v`, as C61); the extension's scan and the outer sums as in C62 (`P_Round9.v`); the external torchlpc and ParaRNN routines are excluded (`lpv_own`); 3-bit floats show that unroll factors differ in the last bit |
| C70 | `lpv_fir`, `lpv_lfilter` (state-space back-end) over rounded operations | `lpv_fir` as one rounded dot product per sample (`P_Round10.v`); the forms as C69 applied to companion matrices, with the drive itself rounded (`P_Round11.v`); `solves_form` in the properties file states the exact output of each form, unique and solvable; 3-bit floats show that unroll factors differ in the last bit |
| C71 | `state_space`, `fir`, `lfilter_ssm` over any operations `cops`, no laws | `SpecBits.v` states streaming, row-wise causality and state machines; `P_Bits.v` proves `state_space` with unroll factor 1 a state machine for each shape of B, C, D, the Python loop multiplying h*A and the CPU kernel A*h; `P_Bits2.v` derives streaming and causality, and treats `fir` and the second direct forms; 3-bit floats refute the unrolled and transposed cases |
| C72 | `state_space`, `lfilter_ssm` on two back-ends, any operations with commutative products | `ss_machines` (`P_Bits.v`) gives the same drive and output maps for every back-end, the step differs in the order of the factors only; `P_Bits3.v`: the first direct forms as the Python or Helion loop; counterexample for the CUDA scan in 3-bit floats |
| C73 | `lpv_state_space`, `state_space` with unroll factor 1, any operations with commutative products | `SpecBits2.v`: the operations in order; `P_Bits4.v` (lpv) and `P_Bits5.v` (lti) show, branch by branch of the dispatch on shapes, that the calls perform them; `P_Bits6.v` the consequences; counterexamples with unrolling in 3-bit floats |
| C74 | `linear_recurrence`, `lpv_linear_recurrence`, `op_lti_recur` on the CPU, any operations | `Properties_Bits4.v`: each sample from the previous one by the stated operations (`follows`); streaming, causality and agreement follow; counterexample with unroll factor 2 in 4-bit floats |
| C75 | `lpv_lfilter` and `lfilter_ssm` in `Df2`, `Tdf2`, any operations with commutative multiplication | `SpecBits3.v`, `Properties_Bits5.v`: state and output from the stated operations (`form_h`, `form_y`); streaming, causality, agreement of back-ends and of lti with lpv follow; counterexample with unroll factor 2 in 3-bit floats |
| C76 | `linear_recurrence`, `state_space`, `lfilter` (lti and lpv), any operations with a scaling map | `SpecScale.v`, `Properties_Scale.v`: the operation sequences of C73-C75 commute with the map; `P_Scale.v`: the exponent of 2^k x is that of x plus k, so the rounding of `FloatQ.v` commutes with plus or minus 2^k; counterexample with factor 3 |
| C77 | `lpv.fir`, `lti.fir`, any operations | `Properties_Bits6.v`: exact sequence of operations of the direct form (`C77_fir`), from it streaming, causality, agreement and scaling; 3-bit counterexamples for the transposed form |
| C78 | `lpv.lfilter` with `backend='torchlpc'`, any operations | `Properties_Bits7.v`: exact sequence of operations (`C78_df2`, `C78_df1`); `torchlpc.sample_wise_lpc` is modelled as the sample minus the sum of the products from the newest value on (`M_Ext.v`), another fixed order inside the library would change `inner` but not the structure of the proofs; transposed direct form I is not treated |
| C79 | `lti.lfilter`, `lpv.lfilter` (both back-ends), `lpv.fir`, operations with exact zeros | `SpecZero.v`, `Properties_Zero.v`: the sequences of C75, C77 and C78 for two orders (`P_Zero.v`); `C79_rounds`: the contract `rounds u` implies exact zeros; signed zeros are not modelled; counterexample for the further state of the transposed form |
| C80 | `filtfilt` and `lfilter` of 1-D signals, `filtfilt` of 2-D signals, `lfilter_zi` with `linalg.solve` as an oracle (any function, the rounded solver included) | `Properties_Filtfilt.v`: `both_passes`, from the exact operations of C75 and the views of C28; 1-D signals with 1-D coefficients and steady state |
| C48-C50 | `prototype/signal.py` (`M_Signal.v`) | formal polynomials (`P_Formal.v`): division by (z - p)^m, a polynomial of low degree divisible by all pole factors is 0; counterexamples |

Not expressible: claims about speed, memory, device
placement, `torch.compile` tracing.  They are left out of the property list.

## Trusted base

* The Coq 8.16.1 kernel (including `vm_compute`, used in examples).
* Axioms: every theorem in the `Properties_*.v` files is followed by
  `Print Assumptions`, and every one prints `Closed under the global context`.
  No axiom of the standard library is used.  (Loading the standard library's ssreflect
  files also brings in the opaque parameters `Coq.ssr.ssrunder.Under_rel.*`; no theorem
  depends on them.)
* The reading of torch's operations in `Tensor.v`, of Python and C++ in `M_*.v`,
  and the specifications `Spec*.v`.

Code outside the repository enters as a function argument with a stated contract
(a hypothesis of the theorem that uses it):

| external | contract |
|----------|----------|
| torchlpc `sample_wise_lpc` | modelled as the all-pole recursion; `return_zf` gives the last outputs, newest first |
| ParaRNN scan | the documented linear recurrence |
| `torch.linalg.solve` | the result solves the system (`solve_vec`, `solve_mat`); for `diag_state_space` also that it succeeds on systems with a trivial kernel (`solve_tot`) |
| `torch.linalg.inv` | two-sided inverses, success on trivial kernels (`inv_mat`, `inv_tot`) |
| `torch.linalg.eigvals` in `diag_state_space` | the value returned is a parameter; the theorems state what they need of it (`simple_eigs`, `distinct_eigs`) |
| `torch.linalg.vector_norm` | depends on the entries only, not zero on a vector that starts with 1 (`norm_ok`) |
| `Tensor.real` | a function `re`; theorems that depend on it say what it must fix |
| `torch.linalg.eigvals` in prototype `roots` | a list of eigenvalues, each with a non-zero eigenvector (`eig_ok`) |
| `torch.linalg.eigvals` in prototype `residue`, `residuez` | the roots with multiplicity (`all_roots`, C48_roots) |
| exp(sum(log)), complex sqrt, argsort by modulus in `sos2pfe` | the product (NaN, i.e. `None`, if a real factor is negative); any function that is a square root of the discriminants; any permutation (C51 real), sorted by a modulus order (C51 complex) |
| `torch.cdist < tol` in `unique_roots` | any boolean function, true on the diagonal (C50); exact on the roots (`exact_on`, C48, C49) |
| `torch.argsort` | a permutation of the indices (`sorter`) |
| `torch.max`, `torch.min` on complex tensors | raise RuntimeError |
| user callables of `newton_solve` | act sample by sample (`pointwise1`, `pointwise2`) |
| `torch.allclose` | any boolean function |
| dtype rules of torch | `promote_types` as a table, 0-d tensors only raise the category, `@`/addmm/baddbmm/conv1d require equal types, `linalg.vecdot` equal floating or complex types, `const_data_ptr<T>` checks the type (`M_Dtype.v`); `linalg.eigvals`, `inv`, `solve` reject integers and half precision, eigenvalues are always complex, `t + 0j` makes complex, int64 becoming complex64 (`M_Dtype2.v`) |
| floating-point arithmetic (C61, C62, C66, C69, C70) | `rounds u`: each addition, multiplication and subtraction has a relative error of at most u; adding 0 and multiplying by 1 are exact (no overflow, underflow or NaN).  Sums inside `@`, `vecdot` and convolutions are taken left to right; fused multiply-adds are not modelled.  C71-C80 (equality bit for bit) therefore assume that a library product sums in an order that does not depend on the number of rows or samples |
| autograd engine | a gradient returned for an input of shape `[1]` is summed to that shape (`engine_reduce` in `SpecAutograd.v`, C36 for `LTIRecurrence`) |
| forward-mode AD | an ordinary operation on dual tensors is the operation over dual numbers; a custom Function runs `forward` on the primals and `jvp` on the tangents (`with_jvp`, C54) |

## Modelled / not modelled

Modelled: `lti/recur.py`, `lti/ssm.py` (`state_space`, `state_space_recursion`, `diag_state_space`),
`lti/filtering.py`, `lti/interp.py`, `lpv/recur.py`, `lpv/ssm.py`, `lpv/filtering.py`,
`lpv/utils.py`, `mat.py` (products and powers, companion, `find_eigenvectors`), `poly.py`, `utils.py`,
`csrc/*.cpp` host kernels and the scan of `csrc/*.cu`, `prototype/poly.py`,
`prototype/nl.py`, `prototype/signal.py`, the derivative rules and fake kernels (`M_Autograd.v`: `backward`/`jvp` of the
three autograd Functions, `_recurN_backward`, `_lti_recurN_backward`, `_lti_recur_backward`,
`register_fake` bodies of `__init__.py`).

Not modelled: floating point outside C61, C62, C66, C69-C80 (and the number of points of
`torch.arange(-2, 2, 1/m)` in `lti/interp.py`), overflow, underflow and NaN, dtypes in the value model (except the flags for complex/int64;
`M_Dtype.v`, `M_Dtype2.v` and `M_Dtype3.v` follow the dtypes of the operators, the state-space functions and the filters separately, C60 and C68),
devices, autograd graph bookkeeping (saved tensors, reverse over reverse, accumulation), `setup.py`, build and import machinery,
Helion kernel code generation (only which back-end is chosen and what it computes).
