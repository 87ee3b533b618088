# Formal model of deepquantum in Rocq

## 1. Shape of the development

`rocq/theories/` is split into

* **base**: `PyBase.v` (exceptions as values, python integers, list indexing, `list.insert`...),
  `Scalar.v` (commutative ring with conjugation), `BigSum.v`, `Tensor.v` (torch tensors, row-major
  `shape`+`data`, and the torch primitives the code uses), `TensorFacts.v`.
* **spec**: `Spec.v` - what an operation on qubits *means*, written without any model helper: states are
  functions on bit lists, qubit 0 first (most significant), a gate on wires is a finite sum.
* **models**, one file per python module, each definition citing file and lines: `QMath.v`, `QTN.v`,
  `QOperator.v`, `QGates.v`, `QLayers.v`, `QCircuit.v`, `QGradient.v`, `QGateLegacy.v`, `QLayerOld.v`, `QEmbedding.v`, `QQuanv.v`, `QQuanv2.v`;
  and models of further aspects of the same modules: `QMathC.v` (complex-valued helpers), `QInfo.v` (`info()`), `QCircuitX.v` (`add` that raises),
  `QShared.v` (one object added several times), `QFailed.v` and `QFailed2.v` (calls that raise), `QStride.v`, `QStride2.v` and `QStride3.v` (memory layouts and `view`; whole circuits; gradients).
* **proofs** about each model file.
* **properties**: files `Prop_*.v`, holding only the property theorems (closed by `exact`), a concrete case
  meeting the hypotheses beside each, and `Print Assumptions`.

### Scalars
Structural code (kron, expansion, contraction, MPS, partial trace) never inspects numbers, except
`torch.abs(S)>1e-8`. It is modelled over an arbitrary `Scalar`: commutative ring with an involutive conjugation
and a boolean size test. Instances: Gaussian integers (executable, used to run the model on examples) and
complex numbers over Coq's `R` (used for cos/sin/sqrt, norms, derivatives). Floating point rounding is *not*
modelled: every number is exact.

### Exceptions
`res A := Ok a | Err exn`, with the python exception class. Errors raised inside torch are all `TorchError`
(the class torch picks is not modelled).

### SVD
`torch.svd` is an argument of the model. Theorems quantify over every `svd` function satisfying a stated
specification: shapes, A = U diag(S) V^dagger, S sorted w.r.t. the cut-off test and entries under the cut-off equal to 0
(for the exact theorems), or orthonormal columns (for the error bound). A witness satisfying the exact
specification is given so that hypotheses are satisfiable. For the error bound, `SVDExist1.v`-`SVDExist5.v` prove that every
complex matrix has a singular value decomposition (maximise 2|Ax|^2 - |x|^4, deflate, complete to orthonormal columns).

### Objects
A gate/layer object is a record of its attributes; methods are functions; mutators return the new record.
Circuit is a record with the gate list and the parameter bookkeeping. Aliasing (the same python object added twice, or
changed through another reference) is modelled in QShared.v for `add`, `params_update` and both gradients: C76 proves that this
model agrees with the record model when no object occurs twice, and what happens otherwise. Elsewhere aliasing is not modelled,
except where a property is about it (caller's list sorted by partial_trace, caller's MPS changed by MPS_expec,
gate.params_update after add).

## 2. Plan per property

| id | modelled | proof |
|----|----------|-------|
| C01 | gate_expand_1toN, multi_kron, class constructors and U_expand | entry formula of an iterated kron by induction on the number of factors |
| C02 | two_qubit_control_gate and classes | sum of two kron products, same entry formula |
| C03 | rxx/ryy/rzz U_expand | same |
| C04 | SWAP.U_expand | sum of four products |
| C05 | multi_control_gate, toffoli, multi_control_cnot | I^N - P + P' |
| C06 | all U_expand with integer wires | refuted for SWAP by witness; holds for the others |
| C07 | gates, layers | the operator of Spec is unitary when the small matrix is |
| C08 | operation_dagger methods | adjoint of the embedded operator, trigonometric identities |
| C09, C10 | TN_contract of all gates and layers | permutation pipeline lemma for arbitrary wires, generic leading dims |
| C11, C13 | TN_operation of all gates and layers, decomposition helpers | local change of the matrix product, SWAP chain induction |
| C12 | StateVec2MPS, MPS2StateVec | loop invariant |
| C14-C16 | Circuit.U, TN_evolution, TN_contract_evolution | induction on the gate list |
| C17, C18 | ring layers with gate fusion | induction on the growing fused matrix |
| C19, C20 | layers | entry formula, slices |
| C21-C23, C50 | partial_trace, partial_trace_old, ptrace | recursion with nested slicing; sums |
| C24, C25 | expval, measure, _Zmeasure | diag entries; C25 refuted at ith=0 |
| C26, C27 | Circuit.add, clear | induction on history; C27 refuted |
| C28-C31 | parameter_shift | E(theta)=a+b cos+c sin for each parameter, derivable_pt_lim; C29 refuted, C30/C31 partly |
| C32 | params_update | equality of records |
| C33 | TN_check | refuted for rxx; guarded version proved |
| C34, C35 | encoders | direct |
| C36, C37 | MPS_inner_product, MPS_expec | loop invariant; guarded (bond dims >= 2), refuted in general |
| C38 | Rho2MPS, MPS2Rho | loop invariant |
| C39 | predicates | direct |
| C40 | legacy Circuit | entry formula |
| C41 | QuanConv2D.forward index loops | arithmetic; refuted without a size condition |
| C42 | MatrixProductState, MPDO | data unchanged |
| C43 | cir_expectation | from C15 |
| C44 | layers, duplicate wires | refuted by witness; proved for distinct wires |
| C45, C46, C47 | state_init, multi_kron, dag, Spec | direct |
| C48 | StateVec2MPS over C with a true SVD (TruncSpec.v) | loop invariant: sites left-orthonormal, error orthogonal to what is kept, error = sum of the dropped squares |
| C49 | TN_operation, equal wires | refuted |
| C51 | gram_encoding | direct |
| C52 | PrepareRho | direct |
| C53 | layers/qlayer.py, calls through the class qgate.Circuit | refuted for every call, by cases |
| C54 | TN_operation and TN_evolution over C with a true SVD, from a normalised state vector | invariant: every block of sites left of a cut is near an isometry, the error grows by 8e-8 per step; refuted in an arbitrary gauge |
| C55 | cir_expectation (TN=True) and measure after a truncated evolution, over C with a true SVD | C54, the Cauchy-Schwarz inequality and unitarity |
| C56 | layers/qlayer.py, bodies of the layer functions with the gate functions as an argument | matrix of the documented gate list for every family of gate functions that return the documented matrices, by induction over the loops; ValueError otherwise |
| C57 | QuanConv2D values | the CNOT ring maps Z on qubit c to a product of Z (`wmean_cnot`, `ring_mean`), the product state gives a product of one-qubit means, Bloch rotations give the factor |
| C58 | Net | convolution (C41), torch.flatten, two nn.Linear and relu on arrays of reals; sizes by case analysis |
| C59 | TN_contract, TN_operation of the gates with equal, negative or too large wires, wrong rank, unset wires | case analysis of list.remove and permute; the batch form equals the unbatched form on one more qubit |
| C60 | label and info() of every gate and layer class | a separate reader (InfoSpec.v) from the dict to a list of gates; case analysis over classes, rings by list lemmas; matrices from C01-C07, C14 |
| C61 | constructors, U_expand, TN_contract, TN_operation with wire lists of any length | only the first two wires are read (matrix, contraction); min and max of the list (cnot on an MPS); refutation by the two cnot operators |
| C62 | add, operation_dagger, U, TN_evolution, TN_contract_evolution of circuits holding any objects (QCircuitX.v) | the daggers are the objects of the inverse operations, so the result is a circuit of QCircuit.v; induction from the end with unitarity |
| C63 | the same, with PauliEncoding or None in the gate list | state after the exception returned by the model of add; the folds of U and of the evolutions split at the object |
| C64 | gates, layers, circuit; move in PlaceSpec.v | the operator of a moved gate is the lift of the operator of the gate (lift_lift, lift_ctrl); lift distributes over products |
| C65 | the same; list of identities in IdentSpec.v | each identity checked entry by entry with complex ring and the addition formulas; moved into a context by C64's lemmas |
| C66 | partial_trace, measure, cir_expectation, MPS_expec, cal_params_grad as above; u @ rho @ dag(u) (RhoCalls.v) | a circuit within / apart from a set of wires is a lift of a unitary on them / on the others (ApartFacts.v); cyclicity of the partial trace, and commuting with the observable |
| C67 | the same | scaling of inner products by the squared modulus |
| C68 | StateVec2MPS, TN_evolution with the shapes torch.svd returns as the only assumption | every cut of a decomposition is bounded by both matrix dimensions; induction over the circuit, with the interval of bonds an operation may change |
| C69 | cir_expectation, cal_params_grad along the family of circuits with one angle varying | each operation is, in each of its angles, a phase times cos(x/2) A + sin(x/2) B (cu3: A + cos(x/2) B + sin(x/2) D); trigonometric identities |
| C70 | the same | linearity of the quadratic form, unitarity of the circuit, Cauchy and Schwarz |
| C71 | the same, the SVD any routine meeting the definition of one | the gradient run in terms of the values returned by cir_expectation, then the bound of C55 at both shifted angles; angles do not change the number of moves |
| C72 | the layer model with python indices | the list of gates as a fold, the forms as folds over the wires; negative wires by the index rule, counts as powers |
| C73 | the layer model with python indices | the loop over the wires as a fold of cnot matrices, good pairs multiply, the first bad pair raises; the fused form of the full ring by the lemmas of C18/C19 |
| C74 | the encoding model with python indices | the facts of C72 about lists of gates, with rotations about one axis: powers are multiples of the angle |
| C75 | TN_operation of the gates, with python indices | every loop index is shifted by N; a wrong index fails at the first exchange that reads it; a rank argument for the wrapped pair |
| C76 | Circuit.add, cal_params_grad, save_mid_MPS, cal_params_grad2, params_update with circuits holding references (QShared.v) | simulation by the value model when no reference repeats; with repetitions each two-point entry is computed on the updated objects; the adjoint loop reads one gate at a time, so the value model's run is simulated gate by gate |
| C77 | cal_params_grad, u3/cu3.params_update, BasicEntangleLayer.params_update returning the object together with the value or exception (QFailed.v) | equality with the other model; invariant of the loop: the circuit is the original except for the angle being shifted; the sweep of C30 resets it; prefix of the parts made before the ValueError |
| C78 | params_update, cal_params_grad, save_mid_MPS, cal_params_grad2 on a circuit whose gates carry other angles than the record | loop invariants of C28 and C31 started with gates and record that differ; entries identified with spec-level expectation values; closed forms for rx give the refutations |
| C79 | cal_params_grad2 returning the circuit together with the value or exception (QFailed2.v) | equality with the other model; loop invariant as in C77 with one shift of -pi; first missing key gives KeyError; repair and failed retry from C78 |
| C80 | Tensors with strides (QStride.v): torch's view rule as an algorithm, strided versions of every function of qtensornetwork.py and qoperator.py that calls `view` on a tensor of unknown layout; layouts chosen by torch.svd, einsum and matmul are arguments. Proved: a granted view reads the same memory in row-major order; a sufficient condition for a view (dimensions split, or joined when the strides allow); by a relation between strided and plain results, each strided function returns the plain model's result. Refuted cases: Rho2MPS of a transposed matrix, `view` of a TN_contract result. |
| C81 | Strided versions of layers, TN_evolution, TN_contract_evolution, U and cir_expectation (QStride2.v) on top of QStride.v; the layout of every gate matrix is an arbitrary function of the matrix. Proved with the relation of C80, then combined with C15 and C43 so that the final statements speak of the specification only. |
| C82 | measure, expval and dag with strides (QStride2.v); equal to the models without strides by the relation of C80. Refuted case: expval of the rank-2 tensor that SWAP.TN_contract returns. |
| C83 | parameter_shift.cal_params_grad with strides (QStride3.v), on top of the strided cir_expectation of C81. Every circuit met during the call differs from the original in its angles only, so C81 applies to each call; equality with the model without strides needs only the shapes that torch.svd returns. Combined with C28 for the gradient. |
| C84 | save_mid_MPS and cal_params_grad2 with strides (QStride3.v); a dictionary of saved states is related entry by entry, with the shape invariant of C13 carried along because the views of MPS2StateVec need it. Combined with C31 for the gradient. |
| C85 | C55 and C71 carried over by C81, C83 and C84; C85_true_svd_case shows that a true decomposition with results of the right rank exists. |
| C86 | The module-level Zmeasure (QQuanv2.v); every list entry is the matrix of Z on its qubit, then C43 and C24. |
| C87 | The value as a function of one angle has the four-term derivative of C69, which the range of the observable bounds (C70); mean value theorem, one angle after the other. The two-point value of C28 then gives the gradient. `C87_sharp` shows with rx on one qubit that the constant is the best one. |
| C88 | Mean value theorem one angle after the other, with the derivative of C28 at the point in between; C87 bounds how far that derivative is from the returned entry. The step of descent then follows from the inequality between the sum of the absolute values and the sum of the squares. The update `u - e g` itself is the caller's (an optimiser outside the modelled code) and is written as `descend` in SmoothSpec.v. Each step builds the circuit anew from the new angles; updating the same circuit in place is another matter (C30, C78: `C78_descent_refuted`). `C88_many_steps` adds up the decreases of T steps, which the range of the observable bounds. |

## 3. Trusted base

### Kernel and axioms
Coq 8.16.1 kernel. `Print Assumptions` is run below each theorem. Its output, for the 414 theorems of the `Prop_*.v` files:

* 64 theorems are closed under the global context: `C12_amplitudes`, `C12_round_trip`, `C12_wrong_shapes_rejected`, `C13_initial_shape`, `C17_ring_rejects`, `C19_basic_params_update`, `C19_basic_rejects`, `C20_count_rejected`, `C20_too_many_wires_rejected`, `C21_partial_trace`, `C21_size_refused`, `C21_trace_refused`, `C22_old_agrees`, `C22_ptrace`, `C22_ptrace_agrees`, `C23_trace_hermitian`, `C23_two_steps`, `C32_layers_params_update`, `C32_rotation_layers_params_update`, `C35_too_many`, `C36_bond_one_fails`, `C36_inner_product`, `C36_one_qubit_fails`, `C38_sites`, `C38_wrong_shapes_rejected`, `C41_fits`, `C42_density_operator`, `C42_matrix_product_state`, `C42_wrong_shapes_rejected`, `C46_dag`, `C46_dag_product`, `C46_dag_rejects`, `C46_multi_kron`, `C46_multi_kron_mul`, `C48_count`, `C50_any_list`, `C50_argument_sorted_refuted`, `C50_negative`, `C50_out_of_range`, `C50_repeated_refuted`, `C50_repeated_zero`, `C50_too_many`, `C60_after_layer_update`, `C68_initial`, `C77_layer_update_is_update`, `C80_cnot_any_layout`, `C80_contract_any_layout`, `C80_contract_view_refuted`, `C80_ctrl_any_layout`, `C80_layouts_case`, `C80_merge_order`, `C80_mps2rho_any_layout`, `C80_operator_any_layout`, `C80_rho_row_major`, `C80_rho_transposed_refuted`, `C80_single_any_layout`, `C80_sites_case`, `C80_state_any_layout`, `C80_swap_any_layout`, `C80_toffoli_any_layout`, `C80_vector_any_layout`, `C80_vector_case`, `C80_view_reads_row_major`, `C80_view_refuses`.
* `C08_no_dagger`: `ClassicalDedekindReals.sig_forall_dec`.
* `C48_true_svd_exists`, `C85_true_svd_case`: the three axioms of the last item, `Classical_Prop.classic` and
  `IndefiniteDescription.constructive_indefinite_description`.
* `C69_gradient`, `C69_period`, `C69_three_points`, `C87_gradient_change`, `C87_value_change`, `C88_decrease`, `C88_descent`, `C88_many_steps`, `C88_prediction`: the three axioms of the last item and `Classical_Prop.classic`.
* every other theorem: `ClassicalDedekindReals.sig_forall_dec`, `ClassicalDedekindReals.sig_not_dec`,
  `FunctionalExtensionality.functional_extensionality_dep` (the axioms behind Coq's `R`).

No axiom is added by this development.

### Transcription
The python was transcribed by hand into Gallina, including the meaning given to each torch primitive in `Tensor.v`. The python code was
never run. Modelled:

* `gates/qmath.py`, `gates/qtensornetwork.py`, `gates/qoperator.py`, `gates/qcircuit.py`, `gates/qgate.py` (legacy `Circuit`)
* `layers/qlayers.py`, `layers/qlayer.py`, `embeddings/qembedding.py`, `embeddings/qstate.py`
* `nn/modules/quanv.py`: `Zmeasure`, `QuanConv2D` and `Net`; `torch.flatten`, `nn.Linear` and `F.relu` as functions on arrays of reals

Simplifications, each repeated in the comment of the definition concerned:

* numbers are exact; no rounding, overflow, nan or dtype promotion. Division by zero gives the error `NotFinite`.
* In Tensor.v `view` behaves as `reshape`. QStride.v models strides and torch's view rule, and C80 proves that for the functions listed there the difference cannot be observed (and names the two places where it can). The rule is transcribed from torch's `computeStride`; contiguous results of cat, index_select and diag, and the two possible layouts of a matrix product, are assumed. C81 to C84 do the same for circuits, expectation values, measurements and gradients. Einsum broadcasting of size-1 axes and 1-D `matmul` are not modelled.
* `torch.svd` is an argument. Assumed of it: `exact_svd` (MPSSpec.v) for exact theorems, `true_at` (TruncSpec.v) for the error bound,
  `real_col` (MPDOSpec.v) for C38. `exact_svd` says that nothing nonzero is lost by the 1e-8 cut, which a real SVD does not
  satisfy on matrices with tiny nonzero singular values; C48 covers these for `StateVec2MPS`, C55 and C71 for values and gradients, C54 for gates
  and circuits applied to what `StateVec2MPS` returns. For an MPS in any other gauge C54 gives a counterexample.
* in-place changes of a list are modelled by returning the new list; aliasing as in section 1.
* an exception in the middle of an update leaves no partial state in the model, except for `Circuit.add` (C63), `cal_params_grad` and the `params_update` methods of gates and `BasicEntangleLayer` (C77), `cal_params_grad2` (C79).
* random draws and initial parameters are inputs.
* `parameters()` without `requires_grad`, rank-3 observables in `cir_expectation`, non-0-dimensional angles of the legacy `Circuit`,
  negative `N` for `AmplitudeEncoding`, `gram_encoding` other than rank 2, images of `QuanConv2D` other than rank 4 are outside the model.

Not modelled: `tests/`, autograd, devices, strides outside C80 to C85, convergence of the SVD, printing, nn.Module registration, plots.
