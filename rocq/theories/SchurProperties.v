(** C136: the Stokes solve by the Schur complement. *)
From Coq Require Import Reals List Bool Lia Arith ZArith Lra.
From Verif Require Import Outcome LaBase BlockVec IntegModel LinalgModel MbModel MbSpec StdySpec StdyProofs SchurModel SchurSpec SchurProofs SchurExamples.
Import ListNotations.
Local Open Scope list_scope.
Local Open Scope R_scope.

(** If the solve returns, the momentum equations hold to the tolerance of the velocity solver, whatever the pressure solver did. *)
Theorem C136_momentum : forall ns udim vs ndofs vdim fo pres_dbc M B cg cgs minres tol rhs u u',
  udim = (vdim 0 + vdim 1)%nat -> flow_offsets ns 2 udim vs ndofs vdim = Ok fo -> sub_shaped ns 2 vs rhs -> sub_shaped ns 2 vs u ->
  let nu := nsum ns (fun m => vs m 0%nat) in let np := nsum ns (fun m => vs m 1%nat) in
  cg_sound nu M tol cg -> solver_sized np minres ->
  schur_solve ns (fo_u fo) (fo_p fo) pres_dbc M B cg cgs minres rhs u = Ok u' ->
  exists b x, sub_shaped ns 2 vs u' /\ ordered ns vs rhs b /\ ordered ns vs u' x /\ forall i, (i < nu)%nat -> Rabs (momentum nu np M B b x i) <= tol.
Proof.
  intros ns udim vs ndofs vdim fo pres_dbc M B cg cgs minres tol rhs u u' Hu Ef Sr Su nu np Hc Hs E.
  exact (schur_momentum ns udim vs ndofs vdim fo Hu Ef pres_dbc M B cg cgs minres tol rhs u Sr Su Hc Hs u' E).
Qed.
Print Assumptions C136_momentum.

(** With exact solvers both equations hold; if the boundary does not fix the pressure, the divergence is given up to the mean of its
    right-hand side, and the pressures have mean zero. *)
Theorem C136_solution : forall ns udim vs ndofs vdim fo pres_dbc M B cg cgs minres rhs u u',
  udim = (vdim 0 + vdim 1)%nat -> flow_offsets ns 2 udim vs ndofs vdim = Ok fo -> sub_shaped ns 2 vs rhs -> sub_shaped ns 2 vs u ->
  let nu := nsum ns (fun m => vs m 0%nat) in let np := nsum ns (fun m => vs m 1%nat) in
  cg_sound nu M 0 cg -> cg_sound nu M 0 cgs -> solver_sized np minres -> solver_exact np minres -> injective nu M ->
  (pres_dbc = false -> constants_free nu np B /\ (0 < np)%nat) ->
  schur_solve ns (fo_u fo) (fo_p fo) pres_dbc M B cg cgs minres rhs u = Ok u' ->
  exists b x, sub_shaped ns 2 vs u' /\ ordered ns vs rhs b /\ ordered ns vs u' x /\
    (forall i, (i < nu)%nat -> momentum nu np M B b x i = 0) /\
    (forall q, (q < np)%nat -> divergence nu B b x q = if pres_dbc then 0 else - mean_p nu np b) /\
    (pres_dbc = false -> rsum np (fun q => vnth x (nu + q)) = 0).
Proof.
  intros ns udim vs ndofs vdim fo pres_dbc M B cg cgs minres rhs u u' Hu Ef Sr Su nu np Hc Hcs Hs He Hi Hf E.
  exact (schur_divergence ns udim vs ndofs vdim fo Hu Ef pres_dbc M B cg cgs minres 0 rhs u Sr Su Hc Hs u' eq_refl Hi Hcs He Hf E).
Qed.
Print Assumptions C136_solution.

(** Whether the pressure solve has converged is not checked: there is a run that returns although the divergence equation does not hold. *)
Theorem C136_pressure_refuted : exists vs fo M B cg cgs minres rhs u u' b x,
  flow_offsets 1 2 2 vs vs (fun _ => 1%nat) = Ok fo /\ sub_shaped 1 2 vs rhs /\ sub_shaped 1 2 vs u /\
  cg_sound 1 M 0 cg /\ cg_sound 1 M 0 cgs /\ solver_sized 1 minres /\ injective 1 M /\
  schur_solve 1 (fo_u fo) (fo_p fo) true M B cg cgs minres rhs u = Ok u' /\
  ordered 1 vs rhs b /\ ordered 1 vs u' x /\ divergence 1 B b x 0 = 1.
Proof.
  destruct xs_lazy_run as (v & p & E & -> & ->).
  exists xs_vs, xs_fo, xs_M, xs_B, xs_cg, xs_cg, xs_lazy, (xs_vec 4 1), (xs_vec 0 0), (xs_vec 2 0), [4; 1], [2; 0].
  split; [apply xs_offsets|]. split; [apply xs_shape|]. split; [apply xs_shape|]. split; [apply xs_cg_sound|]. split; [apply xs_cg_sound|].
  split; [apply xs_lazy_sized|]. split; [apply xs_injective|]. split; [exact E|]. split; [apply xs_ordered|]. split; [apply xs_ordered|].
  unfold divergence, xs_B. cbn. lra.
Qed.
Print Assumptions C136_pressure_refuted.
