(** Model of the direct solves: which type of matrix each solver declares to MUMPS, and what MUMPS then solves.

    MUMPS and its wrapper [MUMPSSolver] are external.  What is assumed of them: with a symmetric type only the entries
    on and below the diagonal are handed over ([MUMPSSolver::SetOperator]) and stand for both triangles; the vector
    returned by [Mult] solves the system with that matrix.  That [SYMMETRIC_POSITIVE_DEFINITE] also asks for positive
    pivots is left out.  Entries are exact reals; a row or column is a pair of subdomain (or variable) and degree of
    freedom, numbered by [CreateMonolithic] in the order of the pairs. *)
From Coq Require Import Reals List Bool Lia Arith ZArith String.
From Verif Require Import Outcome LaBase IntegModel DgModel MbModel ItfModel ItfSpec.
Import ListNotations.
Local Open Scope nat_scope.

Inductive sym_type := UNSYMMETRIC | SYMMETRIC_INDEFINITE | SYMMETRIC_POSITIVE_DEFINITE.
Inductive fom := Poisson | LinElast | AdvDiff | Stokes | SteadyNS | UnsteadyNS.

(** Full-order systems: src/poisson_solver.cpp:587-593 [SetMUMPSSolver], src/linelast_solver.cpp:294-296,
    src/advdiff_solver.cpp:230-236 [SetMUMPSSolver]; src/stokes_solver.cpp:399-400, 478-496 [SetupMUMPSSolver] with the
    default argument of include/stokes_solver.hpp:182-183; src/steady_ns_solver.cpp:688-694 (the Jacobians of Newton's
    method; the solver set up in 569-570 is not given a matrix); src/unsteady_ns_solver.cpp:161-167. *)
Definition fom_type (k : fom) : sym_type :=
  match k with
  | Poisson | LinElast => SYMMETRIC_POSITIVE_DEFINITE
  | AdvDiff | SteadyNS => UNSYMMETRIC
  | Stokes | UnsteadyNS => SYMMETRIC_INDEFINITE
  end.

(** src/rom_handler.cpp:335-362 [MFEMROMHandler::MFEMROMHandler]: the type of the reduced systems, linear (1046-1064
    [SetupDirectSolver]) and nonlinear (664-670), if they are solved directly; the arguments are the options
    [model_reduction/linear_solver_type] and [model_reduction/linear_system_type], if given. *)
Definition rom_type (solver system : option string) : outcome (option sym_type) :=
  let s := match solver with Some s => s | None => "cg"%string end in
  if String.eqb s "direct" then
    let t := match system with Some t => t | None => "spd"%string end in
    if String.eqb t "spd" then Ok (Some SYMMETRIC_POSITIVE_DEFINITE)
    else if String.eqb t "sid" then Ok (Some SYMMETRIC_INDEFINITE)
    else if String.eqb t "us" then Ok (Some UNSYMMETRIC)
    else Abort
  else if String.eqb s "cg" || String.eqb s "minres" then Ok None
  else Abort.

Definition place := (nat * nat)%type.
Definition place_le (q p : place) : bool := (fst q <? fst p) || ((fst q =? fst p) && (snd q <=? snd p)).

(** [MUMPSSolver::SetOperator] (external): the matrix MUMPS factorizes. *)
Definition mumps_matrix (ty : sym_type) (A : place -> place -> R) (p q : place) : R :=
  match ty with
  | UNSYMMETRIC => A p q
  | _ => if place_le q p then A p q else A q p
  end.

(** [MUMPSSolver::Mult] (external) *)
Definition mumps_mult (fes : list fespace) (ty : sym_type) (A : place -> place -> R) (b x : place -> R) : Prop :=
  forall p, in_range fes p ->
    rsum (List.length fes) (fun J => rsum (fe_size (fth fes J)) (fun c => mumps_matrix ty A p (J, c) * x (J, c))%R) = b p.

(** The four blocks of an interface integrator as the element matrices of [InterfaceForm] *)
Definition block_integ (bs : face -> blocks) : mat_integ := fun f i j =>
  let m := match i, j with 0, 0 => b00 (bs f) | 0, _ => b01 (bs f) | _, 0 => b10 (bs f) | _, _ => b11 (bs f) end in
  FMat (s_h m) (s_w m) (s_at m).

(** src/stokes_solver.cpp:467-475: the blocks [M], [Bt], [B] of the flow system; rows 0 the velocity, 1 the pressure. *)
Definition flow_matrix (M B : nat -> nat -> R) (p q : place) : R :=
  match fst p, fst q with
  | 0, 0 => M (snd p) (snd q)
  | 0, _ => B (snd q) (snd p)
  | _, 0 => B (snd p) (snd q)
  | _, _ => 0%R
  end.

(** src/unsteady_ns_solver.cpp:149-157 [InitializeTimeIntegration]: the velocity block of a time step. *)
Definition step_matrix (bd0 dt : R) (mass M : nat -> nat -> R) (i j : nat) : R := (mass i j * (bd0 / dt) + M i j)%R.
