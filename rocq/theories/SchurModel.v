(** Model of the Stokes solve by the Schur complement of the velocities (classes [SchurOperator] and [StokesSolver]).  Definitions only.

    Simplifications: real numbers; the iterative solvers of MFEM are functions of the right-hand side and of the initial guess, with the
    result and whether it has converged. The multigrid preconditioner is part of these functions; printing is left out. *)
From Coq Require Import Reals List Bool Arith ZArith.
From Verif Require Import Outcome LaBase BlockVec IntegModel LinalgModel MbModel.
Import ListNotations.
Local Open Scope list_scope.
Local Open Scope R_scope.

(** MFEM: [A->Mult(x, y)], [A->MultTranspose(x, y)] for a matrix of [h] rows and [w] columns *)
Definition amul (h w : nat) (A : fm) (x : vec) : vec := map (fun i => rsum w (fun j => A i j * vnth x j)) (seq 0 h).
Definition amul_t (h w : nat) (A : fm) (x : vec) : vec := map (fun j => rsum h (fun i => A i j * vnth x i)) (seq 0 w).

(** include/stokes_solver.hpp:60-72 [SchurOperator::Mult]; [cg]: the solver of the operator (27-48) *)
Definition schur_mult (nu np : nat) (B : fm) (cg : vec -> vec -> vec * bool) (x : vec) : outcome vec :=
  let x1 := amul_t np nu B x in
  let (y1, converged) := cg x1 (repeat 0 nu) in
  if converged then Ok (amul np nu B y1) else Abort.

(** MFEM: [OrthoSolver::Orthogonalize]: the mean is taken out *)
Definition orthogonalize (v : vec) : vec :=
  map (fun x => x - rsum (List.length v) (vnth v) / INR (List.length v)) v.

(** MFEM: [OrthoSolver::Mult] *)
Definition ortho_mult (solve : vec -> vec -> outcome vec) (b x : vec) : outcome vec :=
  let* y := solve (orthogonalize b) x in Ok (orthogonalize y).

(** src/stokes_solver.cpp:816-941 [Solve_obsolete] for the offsets [uo], [po] of the variables; [cg]: solves with [M]; [cgs]: solves within
    the Schur operator; [minres]: for an operator *)
Definition schur_solve (ns : nat) (uo po : list nat) (pres_dbc : bool) (M B : fm) (cg cgs : vec -> vec -> vec * bool)
    (minres : (vec -> outcome vec) -> vec -> vec -> outcome vec) (rhs u : bvec) : outcome bvec :=
  let nu := nth ns uo 0%nat in
  let np := nth ns po 0%nat in
  let* urhs := get_variable_vector ns 2 0 rhs (BVec uo (repeat 0 nu)) in
  let* prhs := get_variable_vector ns 2 1 rhs (BVec po (repeat 0 np)) in
  let (r1, converged) := cg (bv_dat urhs) (repeat 0 nu) in
  if negb converged then Abort
  else
    let r2 := vadd (amul np nu B r1) (-1) (bv_dat prhs) in
    let schur := schur_mult nu np B cgs in
    let* p := if pres_dbc then minres schur r2 (repeat 0 np) else ortho_mult (minres schur) r2 (repeat 0 np) in
    let f3 := vadd (vscale (-1) (amul_t np nu B p)) 1 (bv_dat urhs) in
    let (v, converged) := cg f3 (repeat 0 nu) in
    if negb converged then Abort
    else
      let* u := set_variable_vector ns 2 0 (BVec uo v) u in
      set_variable_vector ns 2 1 (BVec po p) u.
