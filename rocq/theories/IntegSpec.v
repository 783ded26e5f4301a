(** What the nonlinear integrators are supposed to compute, in terms of the finite element functions. *)
From Coq Require Import Reals List Bool Lia Arith.
From Verif Require Import LaBase IntegModel EqpSpec.
Import ListNotations.
Local Open Scope R_scope.

(** The vector [J h] is the directional derivative of [F] at [x] for every direction [h], in the first [n] entries. *)
Definition is_jacobian (n : nat) (F : fv -> fv) (J : fm) (x : fv) : Prop :=
  forall h i, (i < n)%nat ->
    derivable_pt_lim (fun t => F (fun k => x k + t * h k) i) 0 (rsum n (fun j => J i j * h j)).

(** The same for a function of two vectors with two results *)
Definition is_jacobian2 (n1 n2 : nat) (F : fv -> fv -> fv * fv) (J : mats) (x1 x2 : fv) : Prop :=
  forall h1 h2,
    (forall i, (i < n1)%nat ->
       derivable_pt_lim (fun t => fst (F (fun k => x1 k + t * h1 k) (fun k => x2 k + t * h2 k)) i) 0
         (rsum n1 (fun j => m11 J i j * h1 j) + rsum n2 (fun j => m12 J i j * h2 j))) /\
    (forall i, (i < n2)%nat ->
       derivable_pt_lim (fun t => snd (F (fun k => x1 k + t * h1 k) (fun k => x2 k + t * h2 k)) i) 0
         (rsum n1 (fun j => m21 J i j * h1 j) + rsum n2 (fun j => m22 J i j * h2 j))).

(** Component [d] of the function with coefficients [x] (component after component, [nd] each, starting at [o]) where the
    shape functions take the values [s]; its derivative in direction [e] where they have the derivatives [g] *)
Definition field (o nd : nat) (s x : fv) (d : nat) : R := rsum nd (fun m => s m * x (o + m + d * nd)%nat).
Definition deriv (nd : nat) (g : fm) (x : fv) (d e : nat) : R := rsum nd (fun m => g m e * x (m + d * nd)%nat).

(** Derivatives of the shape functions in physical coordinates *)
Definition dphys (dim : nat) (p : qpt) (m e : nat) : R := rsum dim (fun t => q_dref p m t * q_inv p t e).
(** The adjugate is the inverse times the determinant *)
Definition geometry (dim : nat) (p : qpt) : Prop :=
  forall t e, (t < dim)%nat -> (e < dim)%nat -> q_adj p t e = q_J p * q_inv p t e.

(** A coefficient that is not set counts as one *)
Definition coef (q : option R) : R := match q with Some c => c | None => 1 end.

(** The vector [F] paired with the coefficients of a test function *)
Definition tested (n : nat) (v F : fv) : R := rsum n (fun i => v i * F i).

(** [((a . grad) u, v)] at one point with [a = u] or the given wind *)
Definition convection_at (nd dim : nat) (u v : fv) (p : qpt) : R :=
  rsum dim (fun d => rsum dim (fun e =>
    field 0 nd (q_shape p) v d * match q_vQ p with Some a => a e | None => field 0 nd (q_shape p) u e end
      * deriv nd (dphys dim p) u d e)).
(** [(u u, grad v)] at one point *)
Definition inviscid_at (nd dim : nat) (u v : fv) (p : qpt) : R :=
  rsum dim (fun d => rsum dim (fun e =>
    field 0 nd (q_shape p) u d * field 0 nd (q_shape p) u e * deriv nd (dphys dim p) v d e)).
(** [1/2 ((u . grad) u, v) - 1/2 ((u . grad) v, u)] at one point *)
Definition temam_at (nd dim : nat) (u v : fv) (p : qpt) : R :=
  1 / 2 * rsum dim (fun d => rsum dim (fun e =>
    field 0 nd (q_shape p) v d * field 0 nd (q_shape p) u e * deriv nd (dphys dim p) u d e
    - field 0 nd (q_shape p) u d * field 0 nd (q_shape p) u e * deriv nd (dphys dim p) v d e)).
(** Quadrature over the element *)
Definition integral (f : qpt -> R) (rule : list qpt) : R := lsum (fun p => q_w p * q_J p * coef (q_Q p) * f p) rule.

(** Length and normal component of a velocity *)
Definition vdot (dim : nat) (u v : nat -> R) : R := rsum dim (fun d => u d * v d).
Definition speed (dim : nat) (u : nat -> R) : R := sqrt (vdot dim u u).
(** The Lax-Friedrichs flux through the normal [n] *)
Definition lax (dim : nat) (n u1 u2 : nat -> R) (d : nat) : R :=
  1 / 2 * (vdot dim n u1 * u1 d + vdot dim n u2 * u2 d)
  + Rmax (speed dim u1) (speed dim u2) * speed dim n * (u1 d - u2 d).

(** The vector splits into its value, the matrix applied to the increment, and its value at the increment. *)
Definition expands (n : nat) (F : fv -> fv) (J : fm) (x : fv) : Prop := forall h i, (i < n)%nat ->
  F (fun k => x k + h k) i = F x i + rsum n (fun j => J i j * h j) + F h i.
Definition expands2 (n1 n2 : nat) (F : fv -> fv -> fv * fv) (J : mats) (x1 x2 : fv) : Prop := forall h1 h2,
  (forall i, (i < n1)%nat -> fst (F (fun k => x1 k + h1 k) (fun k => x2 k + h2 k)) i =
     fst (F x1 x2) i + (rsum n1 (fun j => m11 J i j * h1 j) + rsum n2 (fun j => m12 J i j * h2 j)) + fst (F h1 h2) i) /\
  (forall i, (i < n2)%nat -> snd (F (fun k => x1 k + h1 k) (fun k => x2 k + h2 k)) i =
     snd (F x1 x2) i + (rsum n1 (fun j => m21 J i j * h1 j) + rsum n2 (fun j => m22 J i j * h2 j)) + snd (F h1 h2) i).

(** Velocities where the Lax-Friedrichs flux has a derivative that the quotients in its formula give *)
Definition smooth_at (dim : nat) (u1 u2 : fv) : Prop :=
  speed dim u1 <> speed dim u2 \/ ((forall d, (d < dim)%nat -> u1 d = u2 d) /\ speed dim u1 <> 0).
(** At every point of a face; on a boundary face the other velocity is the given one, if there is one *)
Definition smooth_face (nd1 nd2 dim : nat) (ud : bool) (rule : list fpt) (x : fv) : Prop := forall p, In p rule ->
  if (nd2 =? 0)%nat then if ud then smooth_at dim (field 0 nd1 (f_s1 p) x) (f_UD p) else True
  else smooth_at dim (field 0 nd1 (f_s1 p) x) (field (nd1 * dim) nd2 (f_s2 p) x).
Definition smooth_itf (nd1 nd2 dim : nat) (rule : list fpt) (x1 x2 : fv) : Prop := forall p, In p rule ->
  smooth_at dim (field 0 nd1 (f_s1 p) x1) (field 0 nd2 (f_s2 p) x2).
