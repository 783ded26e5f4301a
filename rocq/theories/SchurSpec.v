(** What a solution of the Stokes equations is. *)
From Coq Require Import Reals List Bool Arith ZArith.
From Verif Require Import Outcome LaBase BlockVec IntegModel MbModel MbSpec StdySpec.
Import ListNotations.
Local Open Scope list_scope.
Local Open Scope R_scope.

(** Residuals of the equations, of row [i] for velocities and of row [q] for the divergence; the velocities come first in [x] and [b]. *)
Definition momentum (nu np : nat) (M B : fm) (b x : vec) (i : nat) : R :=
  rsum nu (fun k => M i k * vnth x k) + rsum np (fun q => B q i * vnth x (nu + q)) - vnth b i.
Definition divergence (nu : nat) (B : fm) (b x : vec) (q : nat) : R := rsum nu (fun k => B q k * vnth x k) - vnth b (nu + q).

(** Mean of the right-hand side of the divergence equation *)
Definition mean_p (nu np : nat) (b : vec) : R := rsum np (fun q => vnth b (nu + q)) / INR np.

(** The velocity solver: what it says to have converged has the right size and is within the tolerance [tol] in every row. *)
Definition cg_sound (nu : nat) (M : fm) (tol : R) (cg : vec -> vec -> vec * bool) : Prop :=
  forall b x0 x, List.length b = nu -> List.length x0 = nu -> cg b x0 = (x, true) ->
    List.length x = nu /\ forall i, (i < nu)%nat -> Rabs (rsum nu (fun k => M i k * vnth x k) - vnth b i) <= tol.

(** The pressure solver: its result has the right size; it is exact if it solves the system. *)
Definition solver_sized (np : nat) (minres : (vec -> outcome vec) -> vec -> vec -> outcome vec) : Prop :=
  forall op r x0 x, List.length r = np -> List.length x0 = np -> minres op r x0 = Ok x -> List.length x = np.
Definition solver_exact (np : nat) (minres : (vec -> outcome vec) -> vec -> vec -> outcome vec) : Prop :=
  forall op r x0 x, List.length r = np -> List.length x0 = np -> minres op r x0 = Ok x -> op x = Ok r.

(** [M] is injective. *)
Definition injective (nu : nat) (M : fm) : Prop :=
  forall x : nat -> R, (forall i, (i < nu)%nat -> rsum nu (fun k => M i k * x k) = 0) -> forall i, (i < nu)%nat -> x i = 0.

(** Constant pressures exert no force. *)
Definition constants_free (nu np : nat) (B : fm) : Prop := forall i, (i < nu)%nat -> rsum np (fun q => B q i) = 0.
