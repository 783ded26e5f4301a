(** Model of the warnings that the solvers give before they assemble: which coefficients are missing.

    The text of a warning is its constructor; a warning given again at the next step is not counted again.  Coefficients
    for the right-hand side are never null once they are in the list, so the null tests on them look at the list only. *)
From Coq Require Import List Bool.
From Verif Require Import MbModel ProbModel BcModel.
Import ListNotations.

Inductive warning := WNoRhs | WNoBdr | WNullRhs | WNullBdr.

Definition warn (b : bool) (w : warning) : list warning := if b then [w] else [].
Definition all_null {A} (l : list (option A)) : bool := forallb (fun c => match c with None => true | Some _ => false end) l.

(** src/poisson_solver.cpp:521-548 [PoissonSolver::SanityCheckOnCoeffs], before every step of 164-281 *)
Definition poisson_check (s : psolver) : list warning :=
  warn (match po_rhs s with [] => true | _ => false end) WNoRhs ++ warn (match po_bdr s with [] => true | _ => false end) WNoBdr ++
  warn (all_null (map Some (po_rhs s))) WNullRhs ++ warn (all_null (po_bdr s)) WNullBdr.

(** src/stokes_solver.cpp:1056-1080 [StokesSolver::SanityCheckOnCoeffs]; the stress coefficients [sn_coeffs] have the size
    of [ud_coeffs] (92-97) and are never set; [WNullRhs] is for a null among the forcing coefficients *)
Definition stokes_check (s : ssolver) : list warning :=
  warn (match so_ud s with [] => true | _ => false end) WNoBdr ++
  warn (existsb (fun c : option coeff => match c with None => true | Some _ => false end) (map Some (so_rhs s))) WNullRhs ++
  warn (all_null (so_ud s)) WNullBdr.

(** src/linelast_solver.cpp:585 [LinElastSolver::SanityCheckOnCoeffs]: a string that is not printed; the calls in 200, 227 and
    242 are commented out *)
Definition linelast_check (s : lsolver) : list warning := [].
