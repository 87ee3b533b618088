(** The call [u @ rho @ dag(u)] that applies a circuit's matrix to a density matrix (dag: deepquantum/gates/qmath.py:18-26). *)
From Verif Require Import PyBase Scalar Tensor QMath.

Section RhoCalls.
  Context {SC : Scalar}.
  Definition evolve_rho (u t : tensor) : res tensor := do d <- dag u; do v <- matmul u t; matmul v d.
End RhoCalls.
