{"id": "C01", "title": "Single-qubit gates expand to the right N-qubit operator", "statement": "For Hadamard, PauliX/Y/Z, rx, ry, rz, u1, u3 built with N qubits and a wire w in 0..N-1, U_expand() succeeds and returns the 2^N x 2^N matrix that applies the textbook 2x2 matrix of the gate to qubit w (qubit 0 most significant) and leaves every other qubit alone; a wire outside 0..N-1 (or the unset -1) is rejected with ValueError.", "quantifier": "every gate class, every angle, every N>=1, every wire", "why_tests_cant": "N, wire and angle are unbounded/continuous; a test fixes a few.", "anchors": ["deepquantum/gates/qoperator.py:Operator.gate_expand_1toN", "deepquantum/gates/qoperator.py:Hadamard.U_expand", "deepquantum/gates/qoperator.py:rx.U_expand", "deepquantum/gates/qoperator.py:u1.U_expand", "deepquantum/gates/qoperator.py:u3.U_expand", "deepquantum/gates/qmath.py:multi_kron"]}
{"id": "C02", "title": "Controlled two-qubit gates expand to the right operator", "statement": "cnot, cz, cphase and cu3 on N qubits with distinct in-range wires [c,t], in either order and at any distance: U_expand() succeeds and returns the operator that applies the textbook target matrix to qubit t when qubit c is 1 and is the identity when qubit c is 0. Equal or out-of-range wires are rejected with ValueError.", "quantifier": "every N, ordered pair of wires, angle", "why_tests_cant": "unbounded N and all wire pairs", "anchors": ["deepquantum/gates/qoperator.py:Operation.two_qubit_control_gate", "deepquantum/gates/qoperator.py:cnot.U_expand", "deepquantum/gates/qoperator.py:cz.U_expand", "deepquantum/gates/qoperator.py:cphase.U_expand", "deepquantum/gates/qoperator.py:cu3.U_expand"]}
{"id": "C03", "title": "Two-qubit rotations expand to the right operator", "statement": "rxx, ryy, rzz on N qubits with distinct in-range wires: U_expand() is cos(theta/2) I - i sin(theta/2) P_a P_b embedded on the two wires; and it equals the gate's own 4x4 matrix applied to the wires. Any other pair of integers is refused: a second wire beyond the register with IndexError, the rest with ValueError.", "quantifier": "every N, all integer wires, every theta", "why_tests_cant": "unbounded N, all pairs, continuous theta", "anchors": ["deepquantum/gates/qoperator.py:rxx.U_expand", "deepquantum/gates/qoperator.py:ryy.U_expand", "deepquantum/gates/qoperator.py:rzz.U_expand"]}
{"id": "C04", "title": "SWAP exchanges two qubits", "statement": "SWAP on N qubits with distinct in-range wires: U_expand() is the permutation matrix that exchanges the values of the two qubits, for any distance and either order. Negative wires count from the end; wires outside -N..N-1 raise IndexError.", "quantifier": "every N and pair of integers", "why_tests_cant": "unbounded N", "anchors": ["deepquantum/gates/qoperator.py:SWAP.U_expand"]}
{"id": "C05", "title": "Multi-controlled X", "statement": "toffoli and multi_control_cnot: for any list of in-range controls not containing the in-range target, U_expand() flips the target exactly on the basis states where all controls are 1 and is the identity otherwise; target among controls or out-of-range wires are rejected with ValueError.", "quantifier": "every N, every control list of any length, every target", "why_tests_cant": "unbounded number of controls and qubits", "anchors": ["deepquantum/gates/qoperator.py:Operation.multi_control_gate", "deepquantum/gates/qoperator.py:toffoli.U_expand", "deepquantum/gates/qoperator.py:multi_control_cnot.U_expand"]}
{"id": "C06", "title": "Bad wires give an exception or a unitary matrix, except for SWAP", "statement": "For every gate class except SWAP, U_expand() either raises or returns a unitary matrix of size 2^N, whatever integer wires were given. For SWAP the returned matrix is unitary exactly when the two wires are different modulo N: equal wires are accepted and give a matrix that is not unitary, on every register.", "quantifier": "every gate class, every integer wire list", "why_tests_cant": "the bad-input space is unbounded", "anchors": ["deepquantum/gates/qoperator.py:SWAP.U_expand", "deepquantum/gates/qoperator.py:rxx.U_expand", "deepquantum/gates/qoperator.py:Operation.two_qubit_control_gate"]}
{"id": "C07", "title": "Every gate and layer is unitary", "statement": "For every gate and layer with valid wires and any real parameters, U_expand() returns U with U^dagger U = U U^dagger = I.", "quantifier": "every gate/layer class, N, wires, parameters", "why_tests_cant": "continuous parameters, unbounded N", "anchors": ["deepquantum/gates/qoperator.py", "deepquantum/layers/qlayers.py"]}
{"id": "C08", "title": "operation_dagger is the inverse operation", "statement": "For every gate and layer whose operation_dagger() returns an operation, operation_dagger().U_expand() is the conjugate transpose of U_expand(), for all parameters and valid wires. ring_of_cnot2 and BasicEntangleLayer return None instead.", "quantifier": "every gate/layer, parameters, N, wires", "why_tests_cant": "continuous parameters; the existing script samples random angles at N=3", "anchors": ["deepquantum/gates/qoperator.py:u3.operation_dagger", "deepquantum/gates/qoperator.py:cu3.operation_dagger", "deepquantum/layers/qlayers.py:XYZLayer.operation_dagger", "deepquantum/layers/qlayers.py:ring_of_cnot.operation_dagger"]}
{"id": "C09", "title": "Tensor contraction agrees with the matrix", "statement": "For every gate and layer with supportTN and valid wires, TN_contract on a rank-N state tensor succeeds and returns the rank-N tensor whose entries are U_expand() applied to the flattened state; the exception is ring_of_cnot and its dagger on any wires but 0..N-1, which announce support and raise ValueError.", "quantifier": "every gate, N, wires (any order/distance), every state tensor", "why_tests_cant": "index-permutation code: unbounded ranks and all wire orders", "anchors": ["deepquantum/gates/qoperator.py:SingleGateOperation.TN_contract", "deepquantum/gates/qoperator.py:cnot.TN_contract", "deepquantum/gates/qoperator.py:SWAP.TN_contract", "deepquantum/gates/qoperator.py:toffoli.TN_contract", "deepquantum/layers/qlayers.py:SingleGateLayer.TN_contract", "deepquantum/layers/qlayers.py:ring_of_cnot.TN_contract"]}
{"id": "C10", "title": "Batch contraction is per-sample contraction", "statement": "TN_contract(batch_mod=True) on a tensor with a leading batch dimension of any size gives, for each batch element, exactly TN_contract(batch_mod=False) of that element.", "quantifier": "every gate/layer, batch size, N, wires, tensor", "why_tests_cant": "unbounded batch size and rank", "anchors": ["deepquantum/gates/qoperator.py:cnot.TN_contract", "deepquantum/gates/qoperator.py:toffoli.TN_contract", "deepquantum/layers/qlayers.py:SingleGateLayer.TN_contract"]}
{"id": "C11", "title": "MPS gate application agrees with the matrix", "statement": "For every gate and layer that implements TN_operation, and valid wires, applying it to a matrix product state whose amplitudes are psi yields an MPS whose amplitudes are U_expand() psi (exact SVD, no nonzero singular value under the cut-off), for adjacent and distant wires in any order.", "quantifier": "every gate, N, wires, MPS of any bond dimensions", "why_tests_cant": "unbounded chain length, bond dimensions and distances", "anchors": ["deepquantum/gates/qoperator.py:cnot.TN_operation", "deepquantum/gates/qoperator.py:cz.TN_operation", "deepquantum/gates/qoperator.py:SWAP.TN_operation", "deepquantum/gates/qoperator.py:toffoli.TN_operation", "deepquantum/gates/qtensornetwork.py:TensorDecompAfterTwoQbitGate", "deepquantum/gates/qtensornetwork.py:TensorDecompAfterThreeQbitGate"]}
{"id": "C12", "title": "State vector <-> MPS round trip", "statement": "For every nonzero state psi of N>=1 qubits given as a 1 x 2^N tensor, MPS2StateVec(StateVec2MPS(psi,N)) = psi, and with return_sv=False it is psi reshaped to rank N; wrong shapes are rejected with ValueError.", "quantifier": "every N, every nonzero psi, every exact SVD", "why_tests_cant": "unbounded N, continuous psi, SVD non-uniqueness", "anchors": ["deepquantum/gates/qtensornetwork.py:StateVec2MPS", "deepquantum/gates/qtensornetwork.py:MPS2StateVec"]}
{"id": "C13", "title": "MPS shape invariant", "statement": "StateVec2MPS yields, and every TN_operation preserves, a list of N rank-3 tensors of shape [2,Dl,Dr] whose neighbouring bond dimensions match, whose outer bonds are 1 and whose bonds are all >=1, after any sequence of operations.", "quantifier": "every sequence of gates from any state", "why_tests_cant": "unbounded histories", "anchors": ["deepquantum/gates/qtensornetwork.py:StateVec2MPS", "deepquantum/gates/qoperator.py:SWAP.TN_operation", "deepquantum/gates/qcircuit.py:Circuit.TN_evolution"]}
{"id": "C14", "title": "Circuit.U is the ordered product", "statement": "Circuit.U() is the product of the U_expand() of the added operations with later operations on the left; left_to_right=False gives the reversed product; the empty circuit gives the identity.", "quantifier": "every sequence of added operations", "why_tests_cant": "unbounded circuits", "anchors": ["deepquantum/gates/qcircuit.py:Circuit.U"]}
{"id": "C15", "title": "All simulation back ends agree on every circuit", "statement": "For every circuit of operations that implement both tensor forms (all but rxx, ryy, rzz, multi_control_cnot, ring_of_cnot2, BasicEntangleLayer and rings on part of the register) with valid wires and every nonzero state psi: U() applied to psi, TN_contract_evolution of psi viewed as a rank-N tensor, and MPS2StateVec(TN_evolution(StateVec2MPS(psi))) are the same vector, the ordered product applied to psi.", "quantifier": "every circuit, every state", "why_tests_cant": "unbounded circuits and states", "anchors": ["deepquantum/gates/qcircuit.py:Circuit.TN_evolution", "deepquantum/gates/qcircuit.py:Circuit.TN_contract_evolution", "deepquantum/gates/qcircuit.py:Circuit.U"]}
{"id": "C16", "title": "Circuits preserve the norm", "statement": "For every circuit with valid wires, U() is unitary; evolving any state by any back end preserves inner products.", "quantifier": "every circuit, every pair of states", "why_tests_cant": "unbounded circuits", "anchors": ["deepquantum/gates/qcircuit.py:Circuit.U", "deepquantum/gates/qcircuit.py:Circuit.TN_contract_evolution"]}
{"id": "C17", "title": "Fused ring of cnots equals the explicit product", "statement": "ring_of_cnot/ring_of_cnot2/ring_of_cnot_dagger on wires 0..N-1 (gate-fusion path) return the same matrix as multiplying the N-qubit cnots one by one in the documented order, for every N>=3; with two wires they are a single cnot.", "quantifier": "every N, every wire list", "why_tests_cant": "unbounded N; the fusion path grows the matrix step by step", "anchors": ["deepquantum/layers/qlayers.py:ring_of_cnot._gate_fusion_U_expand", "deepquantum/layers/qlayers.py:ring_of_cnot2._gate_fusion_U_expand", "deepquantum/layers/qlayers.py:ring_of_cnot_dagger._gate_fusion_U_expand"]}
{"id": "C18", "title": "ring_of_cnot_dagger undoes ring_of_cnot", "statement": "For all N and valid wires, applying ring_of_cnot then ring_of_cnot_dagger (matrix, contraction or MPS form) restores the state, and conversely.", "quantifier": "every N, state, back end", "why_tests_cant": "unbounded N", "anchors": ["deepquantum/layers/qlayers.py:ring_of_cnot", "deepquantum/layers/qlayers.py:ring_of_cnot_dagger"]}
{"id": "C19", "title": "BasicEntangleLayer is repeated YZY + ring", "statement": "BasicEntangleLayer(N,wires,params,repeat).U_expand() is the product over r of ring_of_cnot after YZYLayer on the r-th slice of 3*len(wires) parameters, for every repeat; a wrong number of parameters is rejected; params_update(q) leaves the layer equal to a freshly built one with q.", "quantifier": "every repeat, N, wires, parameters", "why_tests_cant": "unbounded repeat", "anchors": ["deepquantum/layers/qlayers.py:BasicEntangleLayer"]}
{"id": "C20", "title": "Single-gate layers act wire by wire", "statement": "XYZ/ZYX/YZY/XZX/XZ/ZX/H layers on distinct in-range wires: U_expand() applies to wire w_i the product of the three (two) rotations with parameters params[k*i..k*i+k-1] in the order named by the layer, and the identity to the other qubits; parameter-count mismatch is rejected.", "quantifier": "every N, wire list, parameter list", "why_tests_cant": "unbounded wires and parameters", "anchors": ["deepquantum/layers/qlayers.py:XYZLayer", "deepquantum/layers/qlayers.py:ZYXLayer", "deepquantum/layers/qlayers.py:YZYLayer", "deepquantum/layers/qlayers.py:XZXLayer", "deepquantum/layers/qlayers.py:XZLayer", "deepquantum/layers/qlayers.py:ZXLayer", "deepquantum/layers/qlayers.py:HLayer"]}
{"id": "C21", "title": "partial_trace is the partial trace", "statement": "For a 2^N x 2^N matrix of trace 1 and any list of distinct qubits (any order), partial_trace returns the matrix whose (r,c) entry is the sum over the traced bits of rho, the kept qubits in their original order.", "quantifier": "every N, every subset, every rho", "why_tests_cant": "unbounded N and all subsets", "anchors": ["deepquantum/gates/qmath.py:partial_trace"]}
{"id": "C22", "title": "The three partial-trace routines agree", "statement": "partial_trace and partial_trace_old return the same matrix on all valid inputs, and ptrace(rho,dimA,dimB) equals tracing out the last dimB qubits.", "quantifier": "every N, subset, rho", "why_tests_cant": "unbounded", "anchors": ["deepquantum/gates/qmath.py:partial_trace", "deepquantum/gates/qmath.py:partial_trace_old", "deepquantum/gates/qmath.py:ptrace"]}
{"id": "C23", "title": "Partial trace preserves trace, hermiticity and positivity", "statement": "The result of partial_trace has the same trace as its input, is Hermitian when the input is, positive semidefinite when the input is, and tracing out A then B equals tracing out their union.", "quantifier": "every rho, subset", "why_tests_cant": "unbounded", "anchors": ["deepquantum/gates/qmath.py:partial_trace"]}
{"id": "C24", "title": "measure returns Pauli-Z expectations", "statement": "measure(n,state) on a state vector returns for each qubit i the sum over basis states of +-|psi_b|^2 with the sign of bit i; on a density matrix of trace 1 the corresponding diagonal sum; for psi and |psi><psi| the two agree, and each value of a normalised state lies in [-1,1].", "quantifier": "every n, every state", "why_tests_cant": "continuous states, unbounded n", "anchors": ["deepquantum/gates/qmath.py:measure", "deepquantum/gates/qmath.py:expval", "deepquantum/gates/qmath.py:_Zmeasure"]}
{"id": "C25", "title": "measure with ith selects those qubits, except for 0 and []", "statement": "measure(n,state,ith=q) returns exactly one value, the expectation for qubit q, for every q in 1..n-1, and a non-empty list of qubits in 0..n-1 gives one value per listed qubit, in order. ith=0 and ith=[] measure all qubits, like None. A qubit outside 0..n-1 raises ValueError.", "quantifier": "every q in 0..n-1, every list", "why_tests_cant": "q ranges over all qubits", "anchors": ["deepquantum/gates/qmath.py:_Zmeasure"]}
{"id": "C26", "title": "Parameter bookkeeping of add", "statement": "After any sequence of add calls on a fresh Circuit, cir_num_params is the sum of the operations' num_params, and cir_params has exactly the keys 0..len-1 with the parameters of each operation (None when it has none).", "quantifier": "every sequence of operations", "why_tests_cant": "unbounded histories", "anchors": ["deepquantum/gates/qcircuit.py:Circuit.add"]}
{"id": "C27", "title": "clear restores an empty circuit for simulation but not for the bookkeeping", "statement": "After clear(), a circuit to which operations are added simulates exactly as a new one (U, both evolutions, TN_check, cir_expectation, state_init). Its bookkeeping is not reset: whenever the old circuit had parameters, cir_num_params and cir_params keep them, and cal_params_grad on the refilled circuit raises AssertionError.", "quantifier": "every history containing clear", "why_tests_cant": "depends on history", "anchors": ["deepquantum/gates/qcircuit.py:Circuit.clear"]}
{"id": "C28", "title": "parameter_shift gradient is the derivative, except for cu3", "statement": "For circuits of operations with parameters other than cu3 (rx, ry, rz, u1, u3, rxx, ryy, rzz, cphase, the single-qubit layers, BasicEntangleLayer, and any operations without parameters), cal_params_grad returns for every parameter the exact partial derivative of the expectation value with respect to that parameter, in order, provided the expectation can be computed: the circuit contains an operation with only a matrix form, or every operation works on matrix product states. With rxx, ryy or rzz and nothing that forces the matrix form it raises AttributeError.", "quantifier": "every circuit, parameters, Hermitian or not M, initial state", "why_tests_cant": "derivative is a limit over a continuum", "anchors": ["deepquantum/gates/qcircuit.py:parameter_shift.cal_params_grad", "deepquantum/gates/qcircuit.py:Circuit.cir_expectation"]}
{"id": "C29", "title": "parameter_shift gradient for cu3 is not the derivative", "statement": "For controlled rotations cu3 cal_params_grad returns half the difference of the expectations at angle +-pi/2, which is not the derivative: on cu3(theta,0,0) it is sqrt 2 times the derivative of <X> of the control.", "quantifier": "every circuit with cu3", "why_tests_cant": "continuous parameters", "anchors": ["deepquantum/gates/qcircuit.py:parameter_shift.cal_params_grad", "deepquantum/gates/qoperator.py:cu3"]}
{"id": "C30", "title": "Gradient computation leaves a circuit as built unchanged", "statement": "cal_params_grad and cal_params_grad2 leave a circuit as built by add calls exactly as it was before the call (gates, matrices, bookkeeping). If gates were changed by params_update after they were added, cal_params_grad puts the angles recorded by add back into the gates.", "quantifier": "every circuit state, including after params_update", "why_tests_cant": "depends on the history of updates", "anchors": ["deepquantum/gates/qcircuit.py:parameter_shift.cal_params_grad", "deepquantum/gates/qcircuit.py:Circuit.add"]}
{"id": "C31", "title": "Adjoint gradient cal_params_grad2 is the derivative for rotations", "statement": "save_mid_MPS followed by cal_params_grad2 returns the exact derivative of the expectation of a self-adjoint gate or layer for every parameter of a nonempty circuit of tensor-network operations whose parametrised ones are rx, ry, rz, u3 and the single-qubit layers. For u1, cphase and cu3 the value is not the derivative; an empty circuit raises IndexError.", "quantifier": "every TN-capable circuit, state, observable gate", "why_tests_cant": "continuous, unbounded", "anchors": ["deepquantum/gates/qcircuit.py:parameter_shift.save_mid_MPS", "deepquantum/gates/qcircuit.py:parameter_shift.cal_params_grad2"]}
{"id": "C32", "title": "params_update equals reconstruction", "statement": "After any sequence of params_update calls a gate or layer behaves (U_expand, TN_contract, TN_operation, num_params) as one freshly constructed with the last parameters.", "quantifier": "every gate/layer, every sequence of updates", "why_tests_cant": "unbounded histories", "anchors": ["deepquantum/gates/qoperator.py:u1.params_update", "deepquantum/gates/qoperator.py:cphase.params_update", "deepquantum/gates/qoperator.py:cu3.params_update", "deepquantum/layers/qlayers.py:BasicEntangleLayer.params_update"]}
{"id": "C33", "title": "What TN_check guarantees", "statement": "TN_check() is False exactly when the circuit has a multi_control_cnot, ring_of_cnot2 or BasicEntangleLayer; then neither evolution returns, and they raise ValueError when the operations before the first such one succeed. True guarantees that both evolutions succeed when the circuit has none of rxx, ryy, rzz (no MPS form: TN_evolution raises AttributeError) and no ring on part of the register (both evolutions raise ValueError).", "quantifier": "every circuit", "why_tests_cant": "unbounded circuits", "anchors": ["deepquantum/gates/qcircuit.py:Circuit.TN_check", "deepquantum/gates/qcircuit.py:Circuit.TN_evolution"]}
{"id": "C34", "title": "AmplitudeEncoding gives a normalised state", "statement": "encoded_state() of any input of length <= 2^N with a nonzero entry is a length 2^N state of norm 1 whose leading entries are the input divided by its norm and whose other entries are 0; it does not change when the input is multiplied by a positive number. Longer inputs are rejected with ValueError; the zero vector is accepted and its encoding is not finite; an empty input fails with TypeError.", "quantifier": "every N, every input", "why_tests_cant": "continuous inputs", "anchors": ["deepquantum/embeddings/qembedding.py:AmplitudeEncoding"]}
{"id": "C35", "title": "PauliEncoding repeats inputs cyclically", "statement": "PauliEncoding(N,x,wires,pauli) applies R_pauli(x[i mod len x]) to wires[i] and the identity elsewhere, for distinct in-range wires, as a matrix, a contraction (batched or not) and on matrix product states. More inputs than qubits are rejected by the constructor with ValueError; an unknown pauli, no inputs, or a wire out of range by every use of the object. With a wire given twice the matrix holds the last rotation once and the contraction applies it twice.", "quantifier": "every N, inputs, wires", "why_tests_cant": "unbounded", "anchors": ["deepquantum/embeddings/qembedding.py:PauliEncoding"]}
{"id": "C36", "title": "MPS_inner_product is the inner product", "statement": "MPS_inner_product(ket,bra) returns sum_b conj(bra_b) ket_b for any two MPS on the same N >= 2 qubits whose inner bonds are all at least 2. If some inner bond is 1, or N = 1, it raises instead of returning a number.", "quantifier": "every pair of MPS", "why_tests_cant": "unbounded bond dimensions and N", "anchors": ["deepquantum/gates/qtensornetwork.py:MPS_inner_product"]}
{"id": "C37", "title": "MPS_expec is the expectation of a product observable and alters its argument", "statement": "MPS_expec(MPS,wires,obs) returns Re<psi|(product of obs on wires)|psi> for any wires and any 2x2 observables; afterwards the caller's list represents (product of obs) psi and not psi.", "quantifier": "every MPS, wires, observables", "why_tests_cant": "unbounded", "anchors": ["deepquantum/gates/qtensornetwork.py:MPS_expec"]}
{"id": "C38", "title": "Density matrix <-> MPDO round trip", "statement": "For every N >= 1 and every 2^N x 2^N matrix rho whose trace has real part 1, MPS2Rho(Rho2MPS(rho,N)) = rho, provided torch.svd is exact and gives the last column decomposed a real singular value and a real right factor; a matrix of another trace comes back divided by the real part of its trace (not finite when that is 0). Without the real right factor the round trip can fail for every density matrix. Wrong shapes are rejected with ValueError.", "quantifier": "every N, rho", "why_tests_cant": "continuous rho, unbounded N", "anchors": ["deepquantum/gates/qtensornetwork.py:Rho2MPS", "deepquantum/gates/qtensornetwork.py:MPS2Rho"]}
{"id": "C39", "title": "IsUnitary / IsNormalized / IsHermitian decide within tolerance", "statement": "On square matrices (nonempty vectors) each predicate returns True exactly when every defining equation holds within 1e-6, in particular on every exactly unitary/normalised/Hermitian argument. A non-square matrix or a non-vector raises ValueError, a tensor of rank below 2 IndexError in IsUnitary and IsHermitian.", "quantifier": "every matrix size and entries", "why_tests_cant": "continuous entries, unbounded size", "anchors": ["deepquantum/gates/qmath.py:IsUnitary", "deepquantum/gates/qmath.py:IsNormalized", "deepquantum/gates/qmath.py:IsHermitian"]}
{"id": "C40", "title": "Legacy qgate.Circuit agrees with qcircuit.Circuit, except for a second qubit 0", "statement": "For every sequence of rx, ry, rz, cnot, cz, X, Y, Z, H, rxx, ryy, rzz calls with valid distinct qubits, qgate.Circuit.U() equals the U() of the qcircuit.Circuit built by the corresponding calls, provided the second qubit of rxx, ryy, rzz is not 0: a second qubit 0 is taken for the qubit after the first. Failed controlled calls stay in gate_list, and a negative control counts from the end, even when it is the target.", "quantifier": "every sequence of calls", "why_tests_cant": "unbounded circuits", "anchors": ["deepquantum/gates/qgate.py:Circuit.gate_sequence_product", "deepquantum/gates/qgate.py:Circuit.rxx"]}
{"id": "C41", "title": "QuanConv2D covers exactly the output grid", "statement": "When every square of the grid of step stride lies inside the image (kernel_size <= stride, and len mod stride is 0 or >= kernel_size), forward() returns out[b,c,x,y] = mean Z of qubit c after the circuit for the kernel_size x kernel_size square of channel 0 at (x*stride, y*stride): pixels as RY(pi*pixel), RX RZ RX with the weights, a ring of cnots. For any other image size, in particular any stride below kernel_size, it raises instead of computing the grid; with kernel_size 1 it always raises. Only channel 0 is read. The constructor rejects n_qubits != kernel_size^2.", "quantifier": "every image size, kernel, stride, batch", "why_tests_cant": "unbounded sizes", "anchors": ["deepquantum/nn/modules/quanv.py:QuanConv2D.forward"]}
{"id": "C42", "title": "MatrixProductState / MatrixProductDensityOperator are lossless", "statement": "They return the rank-N (rank-2N) tensor whose entry at (b) (or (r,c)) is the amplitude (matrix element) at the corresponding basis index, and reject wrong shapes.", "quantifier": "every N and tensor", "why_tests_cant": "unbounded N", "anchors": ["deepquantum/gates/qtensornetwork.py:MatrixProductState", "deepquantum/gates/qtensornetwork.py:MatrixProductDensityOperator"]}
{"id": "C43", "title": "cir_expectation does not depend on the back end", "statement": "cir_expectation(psi,M,TN=True) and TN=False return the same value Re<psi|U^dagger M U|psi> for circuits whose operations implement TN_operation; a circuit refused by TN_check gives the TN=False value for either setting. A psi of another shape than 1 x 2^N or a non-square M is rejected with ValueError, a square M of the wrong size raises another exception. With rxx, ryy or rzz TN=True raises AttributeError where TN=False works.", "quantifier": "every circuit, psi, M", "why_tests_cant": "unbounded", "anchors": ["deepquantum/gates/qcircuit.py:Circuit.cir_expectation"]}
{"id": "C44", "title": "Layers behave the same in all forms for distinct wires only", "statement": "For any list of distinct in-range wires, the layer's U_expand, TN_contract and TN_operation describe the same operator. Repeated wires are accepted by the constructors and the forms then disagree: the matrix of HLayer(N,[w,w]) is H on w, its tensor forms do nothing.", "quantifier": "every accepted wire list", "why_tests_cant": "unbounded lists", "anchors": ["deepquantum/layers/qlayers.py:SingleGateLayer.TN_contract", "deepquantum/layers/qlayers.py:HLayer"]}
{"id": "C45", "title": "state_init is |0...0>", "statement": "state_init() returns the normalised basis state 0...0 of 2^N amplitudes.", "quantifier": "every N", "why_tests_cant": "unbounded N", "anchors": ["deepquantum/gates/qcircuit.py:Circuit.state_init"]}
{"id": "C46", "title": "multi_kron and dag obey their laws", "statement": "multi_kron of 2x2 factors has entry at (r,c) equal to the product of factor entries at the bits of r and c, is multiplicative factorwise; dag is an involution, reverses products and rejects non-matrices.", "quantifier": "every list of factors", "why_tests_cant": "unbounded lengths", "anchors": ["deepquantum/gates/qmath.py:multi_kron", "deepquantum/gates/qmath.py:dag"]}
{"id": "C47", "title": "Operations on disjoint wires commute", "statement": "For any two gates with disjoint valid wires the order of application is irrelevant in every back end.", "quantifier": "every pair of gates, N, wires", "why_tests_cant": "unbounded", "anchors": ["deepquantum/gates/qoperator.py"]}
{"id": "C48", "title": "SVD truncation error is bounded", "statement": "With a true SVD (orthonormal factors, exact arithmetic), StateVec2MPS followed by MPS2StateVec gives back a vector whose squared distance to psi is at most 1e-16 times the number of singular values that can occur over the N-1 cuts (sum of min(2^i, 2^(N-i)), itself at most 4*2^(N/2)); the norm lost is exactly that distance. This needs psi to be larger than the bound: a state of norm at most 1e-8 on two or more qubits makes the call raise.", "quantifier": "every N >= 1, every state vector psi above the bound, every decomposition that is a true SVD on the matrices that occur", "why_tests_cant": "ranges over all states of all sizes; the errors of the successive cuts have to be added up for every state, and the bound is only reached on special ones", "anchors": ["deepquantum/gates/qtensornetwork.py:StateVec2MPS"]}
{"id": "C49", "title": "Equal control and target are rejected as a matrix but not in MPS form", "statement": "A controlled gate whose control equals its target q > 0 is rejected by U_expand with ValueError, but TN_operation accepts it and acts as the gate controlled by qubit q-1.", "quantifier": "every N, wire", "why_tests_cant": "unbounded", "anchors": ["deepquantum/gates/qoperator.py:cnot.TN_operation", "deepquantum/gates/qoperator.py:cz.TN_operation"]}
{"id": "C50", "title": "What partial_trace does with malformed qubit lists", "statement": "Lists with a qubit >= N, a negative qubit, or more than N entries are rejected: ValueError for a qubit >= N, TypeError otherwise. Other lists, repetitions included, return the partial trace over the qubits found by removing the sorted entries one after the other, or raise when an entry is below its position in the sorted list: [q,q] traces out q and q-1. The caller's list is sorted in place.", "quantifier": "every list", "why_tests_cant": "unbounded lists", "anchors": ["deepquantum/gates/qmath.py:partial_trace"]}
{"id": "C51", "title": "gram_encoding gives a density matrix but loses signs", "statement": "gram_encoding of a row x with norm different from 1 is Hermitian, positive semidefinite, of trace (|x|/(|x|+1e-12))^2, with entries s_i conj(s_j)/(|x|+1e-12)^2 where s_i is whichever of x_i, -x_i lies in the right half plane; so it is not the density matrix of the normalised row when entries have different signs. A row of norm exactly 1 is returned as x_i x_j.", "quantifier": "every row x of positive length, real or complex", "why_tests_cant": "continuous inputs of any length; positivity ranges over all vectors", "anchors": ["deepquantum/embeddings/qembedding.py:gram_encoding"]}
{"id": "C52", "title": "PrepareRho is the pure state's density matrix only for real amplitudes", "statement": "PrepareState(x) is the vector x; PrepareRho(x) has entries x_i x_j, so it equals |x><x| exactly when every amplitude is real; for (1, i)/sqrt 2 its trace is 0.", "quantifier": "every list of amplitudes", "why_tests_cant": "continuous inputs of any length; the equivalence needs a proof", "anchors": ["deepquantum/embeddings/qstate.py:PrepareState", "deepquantum/embeddings/qstate.py:PrepareRho"]}
{"id": "C53", "title": "The function-style layers of deepquantum.layers never return", "statement": "The functions exported by deepquantum.layers (XYZLayer, YZYLayer, XZXLayer, XZLayer, HLayer, ring_of_cnot, ring_of_cnot2, ring_of_cz, nearest_neighbor_cnot, nearest_neighbor_cz, all2all_cnot, basic_entangle_layer, basic_entangle_layer2, strong_entangle_layer, RxxLayer, RyyLayer, RzzLayer) do not return the documented matrix: every call raises. With valid arguments the exception is AttributeError for the layers made of CNOT or CZ gates only and TypeError for the others, because the gates are called on the class qgate.Circuit and not on an object.", "quantifier": "every function, every number of qubits, every parameter list, every option", "why_tests_cant": "no test calls these functions, and a test would settle only the arguments it tries", "anchors": ["deepquantum/layers/qlayer.py", "deepquantum/gates/qgate.py:Circuit", "deepquantum/layers/__init__.py"]}
{"id": "C54", "title": "Error of a truncated matrix product state evolution", "statement": "Take a normalised state vector, turn it into a matrix product state with StateVec2MPS, apply gates (or evolve a Circuit of gates and layers) with TN_operation / TN_evolution, and turn the result back with MPS2StateVec. With a true singular value decomposition, where every singular value of modulus at most 1e-8 is dropped, no call fails and the Euclidean distance between the result and the state given by the matrices is at most 1e-8 * (sqrt(q) + 8 m). Here q is the number of singular values in the first decomposition and m the number of two- or three-site steps: 0 for a one-qubit gate and 2d - 1 for a gate whose outermost wires are d apart. This needs the state to come from StateVec2MPS: a normalised state given as site tensors with other scalings can make a single cnot fail.", "quantifier": "every number n of qubits with q <= 1e14 (true for n <= 89), every list of gates or layers with m <= 2e6, every normalised state, every decomposition that is a true SVD", "why_tests_cant": "the claim is a bound over all states and all circuits of any depth; a test sees the error of one run in floating point", "anchors": ["deepquantum/gates/qtensornetwork.py:StateVec2MPS", "deepquantum/gates/qtensornetwork.py:TensorDecompAfterTwoQbitGate", "deepquantum/gates/qtensornetwork.py:TensorDecompAfterThreeQbitGate", "deepquantum/gates/qoperator.py:TN_operation", "deepquantum/gates/qcircuit.py:TN_evolution"]}
{"id": "C55", "title": "Error of values computed from a truncated matrix product state", "statement": "For a normalised input state and a circuit of operations with a tensor network form, cir_expectation with TN=True returns a value whose distance to the exact expectation value is at most B e (2 + e), and measure applied to the state vector of the evolved matrix product state returns for every qubit a value within e (2 + e) of the exact mean outcome. B is any number such that the observable lengthens no vector by more than the factor B, and e is the bound of C54 on the distance of the states. Neither call fails.", "quantifier": "every number n of qubits with q <= 1e14 (true for n <= 89), every circuit with m <= 2e6 two- or three-site steps, every normalised state, every observable, every decomposition that is a true SVD", "why_tests_cant": "a bound over all states, circuits and observables; a test compares two floating point numbers of one run", "anchors": ["deepquantum/gates/qcircuit.py:cir_expectation", "deepquantum/gates/qcircuit.py:TN_evolution", "deepquantum/gates/qmath.py:measure"]}
{"id": "C56", "title": "The layer functions combine their gates as documented", "statement": "Whenever the gate functions that the functions of layers/qlayer.py call return the matrices of the gates they are named after, every call with enough qubits and the documented number of parameters returns the matrix of the documented circuit: the rotations of each qubit in the named order, Hadamard on every qubit, CNOT or CZ rings with distance 1 or 2, nearest neighbour pairs (0,1),(2,3),... then (1,2),(3,4),..., every ordered pair for all2all, the same with the register upside down for up2down=False, one gate for two qubits, rotation layer then ring for the entangling layers, and Rxx/Ryy/Rzz on pairs (0,1),(2,3),... then (1,2),(3,4),.... Every other call raises ValueError. The gate classes and multi_kron are gate functions of this kind. (As the code stands the gate functions are reached through the wrong object, see C53.)", "quantifier": "every function of the module, every number of qubits, every parameter list, every single_gate string, both values of up2down, every family of gate functions that return the documented matrices", "why_tests_cant": "the claim is about all register sizes, both parities and all parameters, and no call returns a value today", "anchors": ["deepquantum/layers/qlayer.py:XYZLayer", "deepquantum/layers/qlayer.py:YZYLayer", "deepquantum/layers/qlayer.py:XZXLayer", "deepquantum/layers/qlayer.py:XZLayer", "deepquantum/layers/qlayer.py:HLayer", "deepquantum/layers/qlayer.py:ring_of_cnot", "deepquantum/layers/qlayer.py:ring_of_cnot2", "deepquantum/layers/qlayer.py:ring_of_cz", "deepquantum/layers/qlayer.py:nearest_neighbor_cnot", "deepquantum/layers/qlayer.py:nearest_neighbor_cz", "deepquantum/layers/qlayer.py:all2all_cnot", "deepquantum/layers/qlayer.py:basic_entangle_layer", "deepquantum/layers/qlayer.py:basic_entangle_layer2", "deepquantum/layers/qlayer.py:strong_entangle_layer", "deepquantum/layers/qlayer.py:RxxLayer", "deepquantum/layers/qlayer.py:RyyLayer", "deepquantum/layers/qlayer.py:RzzLayer"]}
{"id": "C57", "title": "Closed form of the quantum convolution", "statement": "When all squares of the grid lie inside the image, every output entry of QuanConv2D is a product of one explicit trigonometric function per pixel: with x the pixel and a, b, c its three scaled weights, the factor is cos c cos a cos(pi x) + sin c (sin b sin(pi x) - cos b sin a cos(pi x)); channel c > 0 multiplies the factors of the pixels 0..c of the square (row by row), channel 0 those of all pixels but the first. In particular a channel does not depend on the other pixels or on their weights.", "quantifier": "every kernel size above 1, stride, weights, gain, use_wscale, lrmul, batch, image and grid position", "why_tests_cant": "a statement about all real pixels and weights and every kernel size; a test would have to simulate 2^(k*k) amplitudes", "anchors": ["deepquantum/nn/modules/quanv.py:QuanConv2D.forward", "deepquantum/nn/modules/quanv.py:QuanConv2D._input", "deepquantum/nn/modules/quanv.py:QuanConv2D._qconv"]}
{"id": "C58", "title": "Net accepts images of 784 pixels with even sides and returns the documented scores", "statement": "Net()(images) returns, for each image of the batch, ten scores: two layers of neurons (the first with max(0,.)) applied to the 4*196 values of the quantum convolution with kernel 2 and stride 2, in the order channel, row, column. A non-empty batch is accepted exactly when it has at least one channel, both sides of the images are even and they have 784 pixels; every other batch raises an exception.", "quantifier": "every batch of images of any sizes and pixels, every weights and biases of the network", "why_tests_cant": "the accepted sizes and the scores are claims about infinitely many images and weights", "anchors": ["deepquantum/nn/modules/quanv.py:Net.__init__", "deepquantum/nn/modules/quanv.py:Net.forward"]}
{"id": "C59", "title": "Contraction with wires outside the register", "statement": "TN_contract of a gate on several wires raises AssertionError for equal wires and for a tensor of the wrong rank, and (SWAP excepted) ValueError for a wire beyond the register. Not refused, although U_expand refuses them: with batch_mod the wire -1, which is then the batch dimension, so that a batch of two states is mixed (cnot on [-1,b] flips qubit b of the second state only); and negative wires of one-qubit gates, which count from the end without a batch and from one place further with a batch. A gate without wires or number of qubits refuses U_expand, TN_contract and TN_operation.", "quantifier": "every gate class, N, integer wires, tensors of every shape, batched or not", "why_tests_cant": "unbounded space of wires, registers and tensors; silent wrong results need to be characterised", "anchors": ["deepquantum/gates/qoperator.py:SingleGateOperation.TN_contract", "deepquantum/gates/qoperator.py:cnot.TN_contract", "deepquantum/gates/qoperator.py:rxx.TN_contract", "deepquantum/gates/qoperator.py:SWAP.TN_contract", "deepquantum/gates/qoperator.py:toffoli.TN_contract", "deepquantum/gates/qoperator.py:SingleGateOperation.TN_operation"]}
{"id": "C60", "title": "info() describes the operation", "statement": "The dict returned by info() of a placed gate or layer determines what the operation does: read as label, control wires, target wires and parameters it names a list of gates whose ordered product is the operation's U_expand(). Reading the descriptions of all operations of a circuit in order gives Circuit.U(). Two operations on the same register with equal descriptions have equal matrices. After params_update the description has the new parameters; the description of operation_dagger() reads as the inverse. A gate made without wires has a description naming wire -1 (one-qubit classes) or raises TypeError (toffoli: AttributeError).", "quantifier": "every gate and layer class, every N, all valid wires and parameters, circuits of any length", "why_tests_cant": "unbounded wires, parameters, repeat counts and circuit lengths; equality of the described and the actual operator is a statement about all matrix entries", "anchors": ["deepquantum/gates/qoperator.py:info of every gate class", "deepquantum/layers/qlayers.py:info of every layer class", "deepquantum/gates/qcircuit.py:Circuit.U"]}
{"id": "C61", "title": "Number of wires given to a gate", "statement": "A gate on two wires given fewer than two wires refuses U_expand and TN_contract (IndexError when the wires given lie in the register); a number where a list is needed (TypeError, or ValueError for -1), or a list where a number is needed (TypeError), is refused by all forms; toffoli counts its wires when constructed, multi_control_cnot needs a target and, for its matrix, a control. Surplus wires are refused by TN_operation of cz, cphase, cu3, SWAP, but ignored by U_expand and TN_contract. cnot does not count for TN_operation: it uses the smallest and the largest wire, so that with three wires the matrix and the matrix-product-state form are different gates, and with the single wire q the latter is a cnot from q-1 to q.", "quantifier": "every gate class, every N, wire lists of any length, all states", "why_tests_cant": "wire lists of any length on any register; which wrong calls silently return needs a proof over all of them", "anchors": ["deepquantum/gates/qoperator.py:toffoli.__init__", "deepquantum/gates/qoperator.py:multi_control_cnot.__init__", "deepquantum/gates/qoperator.py:cnot.U_expand", "deepquantum/gates/qoperator.py:cnot.TN_operation", "deepquantum/gates/qoperator.py:cz.TN_operation", "deepquantum/gates/qoperator.py:SWAP.TN_operation"]}
{"id": "C62", "title": "Undoing a circuit", "statement": "Adding to a circuit the operation_dagger() of each of its operations in reverse order gives a circuit whose U() is exactly the identity (in both multiplication orders), whose TN_contract_evolution returns the tensor it was given (single or batch), and whose TN_evolution ends with a matrix product state of the initial state; it has twice the operations and parameters. This needs every operation to have an inverse: with a BasicEntangleLayer or ring_of_cnot2 the dagger is None, add raises AttributeError and U() raises from then on.", "quantifier": "every N, circuits of any length of all gates and layers with all valid wires and parameters, all input states, all batch sizes", "why_tests_cant": "unbounded circuits and real parameters; exact equality with the identity on all amplitudes", "anchors": ["deepquantum/gates/qcircuit.py:Circuit.add", "deepquantum/gates/qcircuit.py:Circuit.U", "deepquantum/gates/qcircuit.py:Circuit.TN_evolution", "deepquantum/gates/qcircuit.py:Circuit.TN_contract_evolution", "deepquantum/gates/qoperator.py:operation_dagger of every gate class", "deepquantum/layers/qlayers.py:operation_dagger of every layer class"]}
{"id": "C63", "title": "An add that raises leaves its argument in the circuit", "statement": "Adding an object that is neither gate nor layer (a PauliEncoding, or the None returned by operation_dagger of a layer without an inverse) raises AttributeError, but the object stays in the circuit: the parameters recorded are unchanged, U() afterwards includes the matrix of the encoding at its place, both tensor network evolutions and TN_check raise (TN_check answers False if an earlier operation has no such form), None makes U() raise; further operations can be added and clear() makes the circuit empty.", "quantifier": "every N, circuits of any length before and after, all encodings with any inputs, wires and axis, all input states", "why_tests_cant": "unbounded circuits; the effect on later calls is a statement about all continuations", "anchors": ["deepquantum/gates/qcircuit.py:Circuit.add", "deepquantum/gates/qcircuit.py:Circuit.U", "deepquantum/gates/qcircuit.py:Circuit.TN_check", "deepquantum/gates/qcircuit.py:Circuit.clear", "deepquantum/embeddings/qembedding.py:PauliEncoding"]}
{"id": "C64", "title": "Moving a circuit to other wires", "statement": "A circuit written for the wires 0..k-1, rebuilt with wire i replaced by ws[i] in a register of N qubits, acts on the wires ws as the U() of the small circuit and as the identity on all others: in U(), in TN_contract_evolution and in TN_evolution. With ws a permutation of all wires, U() has the same entries with the bits of row and column index renamed.", "quantifier": "every N and k, every list ws of distinct wires in any order, circuits of any length of all gates and layers with all parameters, all states", "why_tests_cant": "unbounded circuits and registers, all placements, exact equality of matrices with real parameters", "anchors": ["deepquantum/gates/qcircuit.py:Circuit.U", "deepquantum/gates/qcircuit.py:Circuit.TN_contract_evolution", "deepquantum/gates/qcircuit.py:Circuit.TN_evolution", "deepquantum/gates/qoperator.py:U_expand of every gate class", "deepquantum/layers/qlayers.py:U_expand of every layer class"]}
{"id": "C65", "title": "Circuit identities", "statement": "84 textbook identities between short gate sequences (angles of consecutive rotations add, angle 0 is the identity, full and half turns, self-inverse gates, products of Pauli gates, conjugation by H/X/Z, Euler decompositions of u3 and cu3, exchange of the wires of symmetric gates, SWAP and the two-qubit rotations out of cnots) hold for the gates as implemented, with the stated factor, on any wires and in the middle of any circuit: replacing one side by the other changes U(), and the states of both evolutions, by exactly that factor, and cir_expectation not at all. Circuits with the same U() can be exchanged inside any circuit, and the order of the controls of multi_control_cnot does not matter. A full turn of cu3's first angle is not the identity up to a factor but a PauliZ on the control.", "quantifier": "all angles, every N, all wires, circuits of any length before and after, all states", "why_tests_cant": "identities in real parameters inside unbounded contexts", "anchors": ["deepquantum/gates/qoperator.py:every gate class", "deepquantum/gates/qcircuit.py:Circuit.U", "deepquantum/gates/qcircuit.py:Circuit.TN_contract_evolution", "deepquantum/gates/qcircuit.py:Circuit.TN_evolution"]}
{"id": "C66", "title": "Operations elsewhere", "statement": "Operations on other qubits do not show. A circuit acting only on traced-out qubits does not change what partial_trace returns; a circuit on the kept qubits can be applied before or after partial_trace. measure of qubits, cir_expectation and MPS_expec of observables on wires that an operation at the end of a circuit does not touch return the same value with and without it, and its entries of cal_params_grad are exactly 0.", "quantifier": "every N, circuits of any length of all gates and layers with all parameters, every list of traced, measured or observed wires, all states, all observables", "why_tests_cant": "unbounded circuits and registers, equality of real values over all inputs", "anchors": ["deepquantum/gates/qmath.py:partial_trace", "deepquantum/gates/qmath.py:measure", "deepquantum/gates/qcircuit.py:Circuit.cir_expectation", "deepquantum/gates/qcircuit.py:parameter_shift.cal_params_grad", "deepquantum/gates/qtensornetwork.py:MPS_expec"]}
{"id": "C67", "title": "Factors of modulus one", "statement": "Multiplying the input state by a complex number of modulus one changes no value a user can observe: measure with any form of its last argument, cir_expectation with both back ends, cal_params_grad and MPS_expec return exactly the same.", "quantifier": "every N, all states, all factors of modulus one, circuits of any length, all observables, all forms of the argument of measure", "why_tests_cant": "equality of real values over all states and factors", "anchors": ["deepquantum/gates/qmath.py:measure", "deepquantum/gates/qcircuit.py:Circuit.cir_expectation", "deepquantum/gates/qcircuit.py:parameter_shift.cal_params_grad", "deepquantum/gates/qtensornetwork.py:MPS_expec"]}
{"id": "C68", "title": "Size of matrix product states", "statement": "The matrix product state returned by StateVec2MPS has no bond larger than the smaller of the two state spaces it separates (2^(i+1) on the left of cut i, 2^(N-i-1) on its right). TN_evolution keeps this bound for circuits of any length, so no site tensor ever has more than 2^N entries; and a circuit none of whose operations acts across a cut leaves the bond at that cut exactly as it was. All this holds whatever singular values are cut off.", "quantifier": "every N, all states, circuits of any length, every decomposition torch.svd may return (only its shapes are assumed)", "why_tests_cant": "a bound on sizes for every circuit length and every outcome of the truncation", "anchors": ["deepquantum/gates/qtensornetwork.py:StateVec2MPS", "deepquantum/gates/qcircuit.py:Circuit.TN_evolution", "deepquantum/gates/qtensornetwork.py:TensorDecompAfterTwoQbitGate", "deepquantum/gates/qtensornetwork.py:TensorDecompAfterThreeQbitGate"]}
{"id": "C69", "title": "Results as functions of one angle", "statement": "Seen as a function of a single angle of any operation other than cu3, whatever precedes and follows it, cir_expectation (both back ends) is the sinusoid of period 2 pi through its values at 0, pi/2 and pi; its least and greatest values are attained and are the mean of the values at 0 and pi minus/plus an amplitude computed from the three values. The entry that cal_params_grad returns for that angle is the derivative of that function, is bounded by the amplitude, is 0 where the expectation is least, and has derivative half the change of the expectation over pi. For every angle of every operation, those of cu3 included, the period is 4 pi and the derivative is a fixed combination of four values of cir_expectation (a correct replacement for the two-value rule, which is wrong for cu3).", "quantifier": "every N, circuits of any length, every angle of every operation, all real values of the angle, all states and observables", "why_tests_cant": "an identity of real functions for every value of the angle and every circuit around it", "anchors": ["deepquantum/gates/qcircuit.py:Circuit.cir_expectation", "deepquantum/gates/qcircuit.py:parameter_shift.cal_params_grad"]}
{"id": "C70", "title": "Results as functions of the observable", "statement": "cir_expectation and cal_params_grad are linear in the observable: a real combination of two matrices gives the same combination of the values and of the gradients. The conjugate transpose gives the same value. If <h|M|h> lies between lo and hi times the squared length of h for all h, then so does the value, for every circuit, and no entry of the gradient exceeds (hi-lo)/2 times the squared length of the state in absolute value; for unitary observables such as Pauli strings lo=-1 and hi=1. The identity gives the squared length of the input state. A factor z on the input state multiplies values and gradients by |z|^2.", "quantifier": "every N, circuits of any length, all states, all pairs of matrices and real coefficients", "why_tests_cant": "linearity and bounds over all matrices, states and circuits", "anchors": ["deepquantum/gates/qcircuit.py:Circuit.cir_expectation", "deepquantum/gates/qcircuit.py:parameter_shift.cal_params_grad"]}
{"id": "C71", "title": "Gradients under truncation", "statement": "parameter_shift.cal_params_grad with the default tensor network back end, whose 1e-8 cut drops small singular values, returns entries within B e (2+e) of the true partial derivatives (of the two-point values when cu3 occurs), where B bounds how much the observable lengthens vectors and e=(sqrt(cuts)+8 moves) 1e-8 is the distance of the states. When some operation has no tensor network form, or TN=False, no decomposition is made and expectation values and gradients are exact whatever the SVD routine would return. The second method (save_mid_MPS with cal_params_grad2), for circuits of rotations and a self-adjoint gate as observable, returns entries within e (2+e) of the derivatives, e counting the moves of the circuit, the observable and the circuit undone.", "quantifier": "every N, circuits of any length, all angles, unit states, all observables, every SVD routine meeting the definition of an SVD (second part: any routine at all)", "why_tests_cant": "an error bound over all circuits, angles and conforming SVD routines", "anchors": ["deepquantum/gates/qcircuit.py:parameter_shift.cal_params_grad", "deepquantum/gates/qcircuit.py:Circuit.cir_expectation", "deepquantum/gates/qmath.py:StateVec2MPS", "deepquantum/gates/qcircuit.py:parameter_shift.cal_params_grad2", "deepquantum/gates/qcircuit.py:parameter_shift.save_mid_MPS"]}
{"id": "C72", "title": "Layers of one-qubit gates on any wires", "statement": "The rotation layers and HLayer accept any list of at most N wires. A negative wire counts from the end. U_expand has on every qubit the gate written last for it; TN_contract and TN_operation apply that gate once for every time the qubit is listed, so they agree with the matrix for distinct qubits only. operation_dagger undoes the layer in each form, also where the forms disagree. With batch_mod=True a negative wire is read one place further: the gate goes to the next qubit, and wire -1 is the batch dimension, so two samples are mixed and any other number of samples raises. A wire outside -N..N-1 passes the constructor and raises IndexError in every form.", "quantifier": "every N, all lists of at most N integers, all angles, all states, batches of any size, all six rotation layers and HLayer", "why_tests_cant": "all wire lists with their repetitions and signs, all sizes and states", "anchors": ["deepquantum/layers/qlayers.py:SingleGateLayer.TN_operation", "deepquantum/layers/qlayers.py:SingleGateLayer.TN_contract", "deepquantum/layers/qlayers.py:XYZLayer._cal_single_gates", "deepquantum/layers/qlayers.py:YZYLayer.operation_dagger", "deepquantum/layers/qlayers.py:HLayer"]}
{"id": "C73", "title": "Rings of cnots and entangling layers on any wires", "statement": "ring_of_cnot, ring_of_cnot_dagger and ring_of_cnot2 accept any list of 2 to N wires. U_expand is the product of the cnots of each wire with the next (for ring_of_cnot2: the second next) wire, cyclically, in the order of the list (reversed for the dagger), if each of them names two different qubits 0..N-1; a qubit may be listed again as long as no cnot has it twice. Otherwise, so for every negative wire, it raises ValueError. operation_dagger has the adjoint matrix. TN_contract and TN_operation raise ValueError unless the wires are 0..N-1 in order. BasicEntangleLayer alternates YZY layers, with the next 3 angles per wire, and rings; on a qubit listed more than once only the last of its rotations acts while all cnots act.", "quantifier": "every N, all lists of 2..N integers, all angles, every number of repetitions", "why_tests_cant": "all wire lists with their repetitions and signs, all sizes and repetitions", "anchors": ["deepquantum/layers/qlayers.py:ring_of_cnot", "deepquantum/layers/qlayers.py:ring_of_cnot_dagger", "deepquantum/layers/qlayers.py:ring_of_cnot2", "deepquantum/layers/qlayers.py:BasicEntangleLayer"]}
{"id": "C74", "title": "PauliEncoding on any wires", "statement": "PauliEncoding accepts any list of wires in -N..N-1, repeated, negative or longer than N. U_expand rotates every qubit by the angle written last for it and leaves unlisted qubits alone. TN_contract and TN_operation rotate by that angle times the number of times the qubit is listed, so they agree with the matrix for distinct qubits only. With batch_mod=True a negative wire is read one place further: the rotation goes to the next qubit, and wire -1 is the batch dimension, so two samples are mixed and any other number of samples raises.", "quantifier": "every N, all non-empty lists of at most N inputs, all lists of integers in -N..N-1 of any length, all three axes, all states, batches of any size", "why_tests_cant": "all wire lists with their repetitions and signs, all inputs, sizes and states", "anchors": ["deepquantum/embeddings/qembedding.py:PauliEncoding._cal_single_gates", "deepquantum/embeddings/qembedding.py:PauliEncoding.U_expand", "deepquantum/layers/qlayers.py:SingleGateLayer.TN_operation", "deepquantum/layers/qlayers.py:SingleGateLayer.TN_contract"]}
{"id": "C75", "title": "Gates on matrix product states with wires outside the register", "statement": "On a list of N site tensors, a gate on two or three distinct wires that are all negative and at least -N does exactly what it does on the wires counted from the end, for the controlled gates, whose matrix refuses such wires, as for SWAP. An application that returns has used wires in -N..N-1 only, and on a matrix product state every gate with a wire >= N raises IndexError. One wire counted from the end and one from the beginning are not refused: cnot(2,[-1,0]) joins the last tensor to the first and can return tensors that are no matrix product state.", "quantifier": "every N, all gates with TN_operation, all wires, all lists of tensors (all matrix product states for the exact exception), every decomposition routine", "why_tests_cant": "all wires, sizes and states; the wrapped case is silent", "anchors": ["deepquantum/gates/qoperator.py:cnot.TN_operation", "deepquantum/gates/qoperator.py:cz.TN_operation", "deepquantum/gates/qoperator.py:cphase.TN_operation", "deepquantum/gates/qoperator.py:cu3.TN_operation", "deepquantum/gates/qoperator.py:SWAP.TN_operation", "deepquantum/gates/qoperator.py:toffoli.TN_operation"]}
{"id": "C76", "title": "The same object added several times", "statement": "A gate or layer object may be added to a circuit several times, or to several circuits. If the objects of a circuit are all different, cal_params_grad returns (or raises) what it does on copies and leaves objects outside the circuit alone. If an object occurs several times, every entry of cal_params_grad belonging to it moves all its occurrences together, so the result is not the gradient: for one rx(theta) object added twice on |0> with observable Z both entries are 0 although both partial derivatives are -sin(2 theta). cal_params_grad2 returns the gradient even then. Both leave every object with the angles it had. params_update on the object changes all its occurrences and not the angles the circuit recorded.", "quantifier": "every N, all lists of gate and layer objects, all lists of references to them, all angles, initial states and observables", "why_tests_cant": "all sharing patterns, sizes and angles; the wrong gradient is silent", "anchors": ["deepquantum/gates/qcircuit.py:Circuit.add", "deepquantum/gates/qcircuit.py:parameter_shift.cal_params_grad", "deepquantum/gates/qcircuit.py:parameter_shift.cal_params_grad2", "deepquantum/gates/qcircuit.py:parameter_shift.save_mid_MPS"]}
{"id": "C77", "title": "What calls that raise leave behind", "statement": "When cal_params_grad raises, exactly one angle of the circuit stays shifted by +pi/2 or -pi/2 and everything else, including the recorded angles, is as before; with an initial state of the wrong shape or a non-square observable it raises ValueError and that angle is the first one of the circuit. The next call that can run returns and puts the angle back. u3.params_update and cu3.params_update with fewer than three angles raise IndexError; the object then acts as before, reports the new angles and its operation_dagger raises IndexError, until three angles are given. BasicEntangleLayer.params_update with too few angles raises ValueError and the object's U_expand raises IndexError until the right number is given, when it equals a newly built layer; with too many it does not raise and ignores the extra ones.", "quantifier": "every N, all lists of gates and layers on valid wires, all angles, all initial states and observables (of any shape), any behaviour of svd for the raising calls, every number of angles", "why_tests_cant": "all circuits and all points at which the call can raise; the damage is seen only in later calls", "anchors": ["deepquantum/gates/qcircuit.py:parameter_shift.cal_params_grad", "deepquantum/gates/qcircuit.py:Circuit.cir_expectation", "deepquantum/gates/qoperator.py:u3.params_update", "deepquantum/gates/qoperator.py:cu3.params_update", "deepquantum/layers/qlayers.py:BasicEntangleLayer.params_update"]}
{"id": "C78", "title": "Gradients of a circuit whose angles were changed after it was built", "statement": "Changing an operation with params_update leaves the circuit equal to one built with the new angles, except that the angles the circuit recorded when the operation was added stay. On a circuit changed in this way, (a) cal_params_grad returns one number per recorded angle and leaves the circuit at the recorded angles; the entries of an operation are half the difference of the two expectation values (for every operation but cu3 this is the derivative) at the mixed point where that operation and all earlier ones have their recorded angles and all later ones their current angles, so in general the list is the gradient neither at the recorded nor at the current angles; (b) save_mid_MPS works at the current angles, and cal_params_grad2 gives for every entry minus the real part of the overlap of M A psi with the state in which that operation alone has its recorded angles with one moved by -pi, whatever the angles of the circuit are when cal_params_grad2 is called, and leaves the circuit at the recorded angles; (c) if the intermediate results were saved while the circuit was as built, cal_params_grad2 gives the exact gradient at the recorded angles even if the angles were changed in between; (d) for one rx(a) changed to rx(b) before both calls the answer is the derivative half way between a and b. (e) If only one operation has angles, cal_params_grad gives the gradient at the recorded angles whatever params_update did, so k steps of gradient descent (cal_params_grad, then params_update) on one rx(a) move the angle to a + k*eta*sin(a) instead of approaching the minimum.", "quantifier": "all circuits of accepted operations on any number of qubits, all recorded and all current angles, all input states, all observables (matrices in (a), operations in (b) and (c)), every exact singular value decomposition", "why_tests_cant": "Tests compare a gradient at a few angles of circuits that were never changed; which mixture of old and new angles each entry uses shows only as a relation over all circuits, positions and pairs of angle lists.", "anchors": ["deepquantum/gates/qcircuit.py:parameter_shift.cal_params_grad", "deepquantum/gates/qcircuit.py:parameter_shift.save_mid_MPS", "deepquantum/gates/qcircuit.py:parameter_shift.cal_params_grad2", "deepquantum/gates/qcircuit.py:Circuit.add", "deepquantum/gates/qoperator.py:rx.params_update", "deepquantum/layers/qlayers.py:BasicEntangleLayer.params_update"]}
{"id": "C79", "title": "What a failed adjoint gradient leaves behind", "statement": "When cal_params_grad2 raises although the initial state is proper, exactly one angle of the circuit stays shifted by -pi and everything else, including the recorded angles, is as before; with an initial state of the wrong shape it raises ValueError and nothing is changed; when it returns, whatever intermediate results it was given, nothing is changed and there is one number per angle. If the intermediate results lack the entry needed for the first operation with angles (for instance the dictionary is empty), it raises KeyError and leaves the first angle of that operation at -pi. A later call with results saved while the circuit was as built returns the exact gradient and puts the angle back; but saving the results after the failed call and calling again gives a wrong answer: cos a instead of -sin a for one rx(a) measured with Z.", "quantifier": "every N, all circuits of gates and layers on valid wires, all angles, all states, all dictionaries of intermediate results (also ones with arbitrary contents), every exact singular value decomposition", "why_tests_cant": "all circuits, all contents of the dictionary and all points at which the call can raise; the damage is seen only in later calls", "anchors": ["deepquantum/gates/qcircuit.py:parameter_shift.cal_params_grad2", "deepquantum/gates/qcircuit.py:parameter_shift.save_mid_MPS"]}
{"id": "C80", "title": "Memory layout of tensors never changes a tensor-network result, with two stated exceptions", "statement": "Gates applied to site tensors (TN_operation of single-qubit gates, SWAP, cnot, cz, cphase, cu3, toffoli), gates applied to a rank-N tensor (TN_contract, with or without batch dimension), StateVec2MPS, MPS2StateVec, MatrixProductState, MPS2Rho and MatrixProductDensityOperator give the same value or exception whatever the memory layout (strides) of their arguments and whatever layouts torch.svd, torch.einsum and the matrix product choose: none of their internal view calls is refused. Rho2MPS does so for a density matrix stored row by row, but raises for one stored column by column, such as a transpose. The result of TN_contract can be refused by the caller's own view to a state vector, where reshape works.", "quantifier": "all scalars, numbers of qubits, wires, gates' matrices, site tensors, bond sizes, strides of every argument, SVD functions and layouts of their results, both layouts of a matrix product", "why_tests_cant": "which layouts occur depends on the torch version, the BLAS/LAPACK back end, the device and the preceding operations; a test run sees one combination, and a refused view only shows up in the others", "anchors": ["deepquantum/gates/qtensornetwork.py: StateVec2MPS, MatrixProductState, MPS2StateVec, TensorDecompAfterTwoQbitGate, TensorDecompAfterThreeQbitGate, Rho2MPS, MPS2Rho, MatrixProductDensityOperator", "deepquantum/gates/qoperator.py: TN_operation, TN_contract of SingleGateOperation, rxx, ryy, rzz, cnot, cz, cphase, cu3, SWAP, toffoli"]}
{"id": "C81", "title": "Whole circuits give the same result whatever the memory layout of states and gate matrices", "statement": "Circuit.TN_evolution, TN_contract_evolution (with or without batch dimension) and U give the same values or the same exception whatever the memory layout (strides) of the initial state, of the gate and layer matrices and of every intermediate result, and cir_expectation does so for a state of shape (1, 2**n) and any observable. No view call on the way is refused, so for valid circuits the result is the ordered product of the operations applied to the state, and the documented expectation value.", "quantifier": "all circuits of gates and layers of any length, numbers of qubits, states, observables, strides of every argument, layouts chosen by torch.svd, einsum and the matrix product", "why_tests_cant": "unbounded circuits, and layouts depend on the torch version, back end and device; a test run sees one combination", "anchors": ["deepquantum/gates/qcircuit.py: Circuit.TN_evolution, TN_contract_evolution, U, cir_expectation", "deepquantum/layers/qlayers.py: TN_operation, TN_contract of SingleGateLayer, ring_of_cnot, ring_of_cnot_dagger"]}
{"id": "C82", "title": "measure never depends on the memory layout of the state; expval does not for vectors and density matrices", "statement": "measure(n, state, ith) returns the same numbers or raises the same exception whatever the memory layout (strides) of the state, for states of any shape. expval(state, M, rho) does so for density matrices and for state vectors of shape (m,), (1,m) or (m,1). For a state of rank N, such as TN_contract_evolution returns, expval can raise because its view is refused: the state after one SWAP on two qubits is a case.", "quantifier": "all states, observables, strides, layouts of matrix products, numbers of qubits and measured wires", "why_tests_cant": "layouts depend on the preceding operations, the torch version and the back end; a test run sees one combination", "anchors": ["deepquantum/gates/qmath.py: measure, expval, _Zmeasure, dag"]}
{"id": "C83", "title": "The parameter-shift gradient never depends on the memory layout of the state or the observable", "statement": "parameter_shift(circuit, state, M).cal_params_grad() returns the same gradient and leaves the circuit the same, or raises the same exception, whatever the memory layout (strides) of the initial state, of the observable, of the gate matrices and of every intermediate result. For circuits of rotations and single-angle gates the result is the gradient of the expectation value and the circuit ends with the angles it started with.", "quantifier": "all valid circuits of any length, numbers of qubits, states of shape (1, 2**n), observables, strides, layouts chosen by torch.svd, einsum and the matrix product", "why_tests_cant": "unbounded circuits, and layouts depend on the torch version, back end and device; a test run sees one combination", "anchors": ["deepquantum/gates/qcircuit.py: parameter_shift.cal_params_grad, Circuit.cir_expectation"]}
{"id": "C84", "title": "The gradient from saved states never depends on the memory layout of the initial state or of the saved states", "statement": "parameter_shift.save_mid_MPS(M_oper) keeps the same states and returns the same final state, or raises the same exception, whatever the memory layout (strides) of the initial state, of the gate matrices and of every intermediate tensor. cal_params_grad2(save_dict) returns the same gradient, or raises the same exception, whatever the layout of the initial state and of the tensors in save_dict; its call of view is never refused. For circuits of rotations and a self-adjoint observable gate the two calls together give the gradient and leave the circuit as it was.", "quantifier": "all valid circuits of any length, observable gates or layers, numbers of qubits, initial states, saved states of n qubits, strides, layouts and results of torch.svd of the right shapes", "why_tests_cant": "unbounded circuits, and layouts depend on the torch version, back end and device; a test run sees one combination", "anchors": ["deepquantum/gates/qcircuit.py: parameter_shift.save_mid_MPS, parameter_shift.cal_params_grad2"]}
{"id": "C85", "title": "The error bounds on expectation values and gradients hold for every memory layout", "statement": "With a true singular value decomposition, singular values up to 1e-8 being dropped, cir_expectation, cal_params_grad, save_mid_MPS followed by cal_params_grad2, and StateVec2MPS, TN_evolution, MPS2StateVec and measure one after the other do not raise and stay within the error bounds of C55 and C71 whatever the memory layout of state, observable, gate matrices and intermediate tensors.", "quantifier": "all valid circuits that support tensor networks, numbers of qubits with at most 1e14 singular values in the cuts, circuits with at most 2e6 two-site steps, normalised states, bounded observables, strides, layouts", "why_tests_cant": "ranges over all circuits, states and layouts; the error of one run says nothing about the others", "anchors": ["deepquantum/gates/qcircuit.py: Circuit.cir_expectation, parameter_shift.cal_params_grad, save_mid_MPS, cal_params_grad2", "deepquantum/gates/qtensornetwork.py: StateVec2MPS, MPS2StateVec"]}
{"id": "C86", "title": "Zmeasure lists the Z observables, and their expectation values are what measure reports", "statement": "The function Zmeasure of quanv.py, given a circuit, returns one matrix for each qubit, the i-th being Z on qubit i; measure(n, state) and QuanConv2D use the same list. For every valid circuit, cir_expectation with each of these matrices gives the means of Z on the qubits of the final state, and measure(n, final state) returns exactly these numbers.", "quantifier": "all valid circuits of any length, numbers of qubits, states, both evaluation methods", "why_tests_cant": "unbounded numbers of qubits and circuits; the function is called by nothing in the package", "anchors": ["deepquantum/nn/modules/quanv.py: Zmeasure, QuanConv2D.Zmeasure", "deepquantum/gates/qmath.py: _Zmeasure, measure", "deepquantum/gates/qcircuit.py: Circuit.cir_expectation"]}
{"id": "C87", "title": "Values and gradients change at most in proportion to the change of the angles", "statement": "Take a valid circuit with two lists of angles, a state and an observable whose expectation values lie between lo and hi. The two results of cir_expectation differ by at most (hi - lo)/2 times the squared length of the state times the sum of the absolute changes of the angles. The same bound holds for every entry of the two lists returned by parameter_shift.cal_params_grad. Circuits with cu3 are included. The constant in the bound on values cannot be made smaller.", "quantifier": "all valid circuits, all pairs of angle lists, states, observables with a bounded range, both evaluation methods", "why_tests_cant": "unbounded circuits and a continuum of pairs of angles; a test compares finitely many", "anchors": ["deepquantum/gates/qcircuit.py: Circuit.cir_expectation, parameter_shift.cal_params_grad", "deepquantum/gates/qoperator.py: params_update"]}
{"id": "C88", "title": "Gradient descent with the parameter-shift gradient lowers the value", "statement": "Take a valid circuit without cu3, a state and an observable whose expectation values lie between lo and hi. The circuit is built anew from the angles each time; for circuits updated in place see C78. Let K be (hi - lo)/2 times the squared length of the state and P the number of angles. The list g returned by parameter_shift.cal_params_grad predicts the change of cir_expectation from angles u to angles v with an error of at most K times the square of the sum of the absolute changes. A step u - e g with learning rate e >= 0 gives a value of at most the old value minus e (1 - e K P) times the sum of the squares of g. With 0 < e and e K P < 1 the value never goes up, and it goes strictly down unless g is zero. Among T steps there is one whose g has a sum of squares s with T e (1 - e K P) s at most (hi - lo) times the squared length of the state.", "quantifier": "all valid circuits without cu3, all angles, learning rates, states, observables with a bounded range, both evaluation methods", "why_tests_cant": "unbounded circuits and a continuum of angles and learning rates; a test follows finitely many steps", "anchors": ["deepquantum/gates/qcircuit.py: Circuit.cir_expectation, parameter_shift.cal_params_grad"]}
