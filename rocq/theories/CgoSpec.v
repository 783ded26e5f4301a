(** What a nonlinear conjugate gradient minimization is, written without the program. *)
From Coq Require Import Reals List Bool Lia Arith.
From Verif Require Import LaBase.
Import ListNotations.
Local Open Scope R_scope.

(** Squared distance of [F u] from [b] in the first [m] entries. *)
Definition misfit (m : nat) (F : vec -> vec) (b u : vec) : R := rsum m (fun i => (vnth (F u) i - vnth b i) * (vnth (F u) i - vnth b i)).
(** Absolute or relative tolerance met by a residual [r] when the first one is [r0]. *)
Definition accepted (atol rtol r0 r : R) : Prop := r < atol \/ (r0 <> 0 /\ r / r0 < rtol).
(** Between [-b] and [b]. *)
Definition clamp (b x : R) : R := Rmax (- b) (Rmin b x).
(** The iterates [Us] of [N] steps from [u0] along directions [Ds]: the first direction is that of steepest descent, later ones add
    a multiple of the one before (Polak-Ribiere, from the second step on limited by Fletcher-Reeves); [J] never increases;
    [G] is the gradient, [n] the number of unknowns. *)
Record cg_path (n : nat) (J : vec -> R) (G : vec -> vec) (u0 : vec) (N : nat) (Us Ds : nat -> vec) : Prop := {
  cgp_start : Us O = u0;
  cgp_len : forall k, (k <= N)%nat -> length (Us k) = n;
  cgp_down : forall k, (k < N)%nat -> J (Us (S k)) <= J (Us k);
  cgp_step : forall k, (k < N)%nat -> exists b, forall i, vnth (Us (S k)) i = vnth (Us k) i + b * vnth (Ds k) i;
  cgp_moving : forall k, (k < N)%nat -> exists i, (i < n)%nat /\ vnth (G (Us k)) i <> 0;
  cgp_first : (0 < N)%nat -> forall i, vnth (Ds O) i = - vnth (G u0) i;
  cgp_next : forall k, (S k < N)%nat ->
    let gg := dot n (G (Us k)) (G (Us k)) in
    let pr := rsum n (fun i => (vnth (G (Us (S k))) i - vnth (G (Us k)) i) * vnth (G (Us (S k))) i) / gg in
    let fr := dot n (G (Us (S k))) (G (Us (S k))) / gg in
    forall i, vnth (Ds (S k)) i = - vnth (G (Us (S k))) i + (if (k =? 0)%nat then pr else clamp fr pr) * vnth (Ds k) i }.
