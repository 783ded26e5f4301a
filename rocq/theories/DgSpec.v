(** What the linear discontinuous Galerkin integrators are supposed to compute, in terms of finite element functions. *)
From Coq Require Import Reals List Bool Lia Arith ZArith.
From Verif Require Import Outcome LaBase EqpSpec IntegModel DgModel.
Import ListNotations.
Local Open Scope R_scope.

(** Coefficients of component [d] of a vector function stored component after component, [n] each *)
Definition comp (n d : nat) (x : fv) : fv := fun i => x (d * n + i)%nat.

(** Value of a function of the element on one side, and its derivative in direction [m] *)
Definition trace (n : nat) (s : side) (x : fv) : R := rsum n (fun i => sd_shape s i * x i).
Definition slope (dim n : nat) (s : side) (x : fv) (m : nat) : R :=
  rsum n (fun i => x i * (rsum dim (fun l => sd_dshape s i l * sd_adj s l m) / sd_W s)).

Definition val (c : option R) : R := match c with Some x => x | None => 1 end.
Definition sq (dim : nat) (n : fv) : R := rsum dim (fun m => n m * n m).

(** [(Q grad u) . n] for a matrix, a scalar or no coefficient; [n . Q n] *)
Definition flux (dim n : nat) (nor : fv) (s : side) (x : fv) : R :=
  match sd_mq s with
  | Some M => rsum dim (fun l => rsum dim (fun m => nor l * M l m * slope dim n s x m))
  | None => val (sd_mu s) * rsum dim (fun m => nor m * slope dim n s x m)
  end.
Definition stiff (dim : nat) (nor : fv) (s : side) : R :=
  match sd_mq s with
  | Some M => rsum dim (fun l => rsum dim (fun m => nor l * M l m * nor m))
  | None => val (sd_mu s) * sq dim nor
  end.

(** Interior penalty form at one point of an interface for a scalar function: [- {flux u} [v] + sigma {flux v} [u] +
    kappa {stiff / h} [u] [v]] with [1/h = |n| / det J] *)
Definition ip_point (dim n1 n2 : nat) (sigma kappa : R) (u1 u2 v1 v2 : fv) (p : dpt) : R :=
  let jump x1 x2 := trace n1 (d_1 p) x1 - trace n2 (d_2 p) x2 in
  let mean x1 x2 := (flux dim n1 (d_nor p) (d_1 p) x1 + flux dim n2 (d_nor p) (d_2 p) x2) / 2 in
  d_w p * (- (mean u1 u2 * jump v1 v2) + sigma * (mean v1 v2 * jump u1 u2)
           + kappa * ((stiff dim (d_nor p) (d_1 p) / sd_W (d_1 p) + stiff dim (d_nor p) (d_2 p) / sd_W (d_2 p)) / 2) * (jump u1 u2 * jump v1 v2)).
Definition ip_form (dim n1 n2 : nat) (sigma kappa : R) (rule : list dpt) (u1 u2 v1 v2 : fv) : R :=
  lsum (ip_point dim n1 n2 sigma kappa u1 u2 v1 v2) rule.

(** The same on a boundary face, where the outer value is zero and nothing is averaged *)
Definition nitsche_point (dim n : nat) (sigma kappa : R) (u v : fv) (p : dpt) : R :=
  d_w p * (- (flux dim n (d_nor p) (d_1 p) u * trace n (d_1 p) v) + sigma * (flux dim n (d_nor p) (d_1 p) v * trace n (d_1 p) u)
           + kappa * (stiff dim (d_nor p) (d_1 p) / sd_W (d_1 p)) * (trace n (d_1 p) u * trace n (d_1 p) v)).

(** Component [c] of the traction [(lambda div u + mu (grad u + grad u^T)) n] *)
Definition traction (dim n : nat) (nor : fv) (s : side) (x : fv) (c : nat) : R :=
  val (sd_lam s) * rsum dim (fun l => slope dim n s (comp n l x) l) * nor c
  + val (sd_mu s) * rsum dim (fun l => (slope dim n s (comp n c x) l + slope dim n s (comp n l x) c) * nor l).
Definition el_point (dim n1 n2 : nat) (sigma kappa : R) (u1 u2 v1 v2 : fv) (p : dpt) : R :=
  let jump x1 x2 c := trace n1 (d_1 p) (comp n1 c x1) - trace n2 (d_2 p) (comp n2 c x2) in
  let mean x1 x2 c := (traction dim n1 (d_nor p) (d_1 p) x1 c + traction dim n2 (d_nor p) (d_2 p) x2 c) / 2 in
  let lm s := val (sd_lam s) + 2 * val (sd_mu s) in
  d_w p * rsum dim (fun c => - (mean u1 u2 c * jump v1 v2 c) + sigma * (mean v1 v2 c * jump u1 u2 c)
           + kappa * sq dim (d_nor p) * ((lm (d_1 p) / sd_W (d_1 p) + lm (d_2 p) / sd_W (d_2 p)) / 2) * (jump u1 u2 c * jump v1 v2 c)).

(** A matrix between two functions; the four blocks of an interface between functions given on the two sides *)
Definition paired (h w : nat) (m : smat) (v u : fv) : R := rsum h (fun i => rsum w (fun j => v i * s_at m i j * u j)).
Definition form (r1 r2 c1 c2 : nat) (b : blocks) (u1 u2 v1 v2 : fv) : R :=
  paired r1 c1 (b00 b) v1 u1 + paired r1 c2 (b01 b) v1 u2 + paired r2 c1 (b10 b) v2 u1 + paired r2 c2 (b11 b) v2 u2.
Definition sized (r1 r2 c1 c2 : nat) (b : blocks) : Prop :=
  (s_h (b00 b) = r1 /\ s_w (b00 b) = c1) /\ (s_h (b01 b) = r1 /\ s_w (b01 b) = c2) /\
  (s_h (b10 b) = r2 /\ s_w (b10 b) = c1) /\ (s_h (b11 b) = r2 /\ s_w (b11 b) = c2).

(** The blocks are the parts of a matrix over the degrees of freedom of both sides, those of the first side first. *)
Definition parts (r1 r2 c1 c2 : nat) (m : smat) (b : blocks) : Prop :=
  s_h m = (r1 + r2)%nat /\ s_w m = (c1 + c2)%nat /\
  (forall i j, (i < r1)%nat -> (j < c1)%nat -> s_at (b00 b) i j = s_at m i j) /\
  (forall i j, (i < r1)%nat -> (j < c2)%nat -> s_at (b01 b) i j = s_at m i (c1 + j)%nat) /\
  (forall i j, (i < r2)%nat -> (j < c1)%nat -> s_at (b10 b) i j = s_at m (r1 + i)%nat j) /\
  (forall i j, (i < r2)%nat -> (j < c2)%nat -> s_at (b11 b) i j = s_at m (r1 + i)%nat (c1 + j)%nat).

(** Every point carries the coefficients that are dereferenced *)
Definition has_mu (s : side) : Prop := sd_mu s <> None /\ sd_mq s = None.
Definition has_lame (s : side) : Prop := sd_mu s <> None /\ sd_lam s <> None.

(** The interface seen from the other side: sides exchanged, normal reversed *)
Definition flip (p : dpt) : dpt := DPt (d_w p) (fun m => - d_nor p m) (d_2 p) (d_1 p).

(** The blocks of a symmetric matrix *)
Definition sym_blocks (n1 n2 : nat) (b : blocks) : Prop :=
  (forall i j, (i < n1)%nat -> (j < n1)%nat -> s_at (b00 b) i j = s_at (b00 b) j i) /\
  (forall i j, (i < n1)%nat -> (j < n2)%nat -> s_at (b01 b) i j = s_at (b10 b) j i) /\
  (forall i j, (i < n2)%nat -> (j < n2)%nat -> s_at (b11 b) i j = s_at (b11 b) j i).

(** The shape functions add up to one *)
Definition unity (dim n : nat) (s : side) : Prop := rsum n (fun i => sd_shape s i) = 1 /\ forall l, (l < dim)%nat -> rsum n (fun i => sd_dshape s i l) = 0.

(** Values of the coefficients that make the penalty nonnegative *)
Definition good_side (dim : nat) (nor : fv) (s : side) : Prop := 0 < sd_W s /\ 0 <= stiff dim nor s.
Definition good_lame (s : side) : Prop := 0 < sd_W s /\ 0 <= val (sd_lam s) + 2 * val (sd_mu s).

(** The right-hand side against a function *)
Definition against (h : nat) (r : smat) (v : fv) : R := rsum h (fun i => s_at r i 0%nat * v i).

(** An integrator takes part on boundary elements with an attribute that its marker selects, on all without a marker. *)
Definition wants (mk : option (list Z)) (attr : nat) : bool :=
  match mk with None => true | Some l => negb (nth (attr - 1) l 0 =? 0)%Z end.

(** The point of a boundary face that goes with the point of a face matrix, with boundary values [g] *)
Definition same_point (dim : nat) (g : dpt -> nat -> R) (p : dpt) (q : bpt) : Prop :=
  b_w q = d_w p /\ b_side q = d_1 p /\ (forall m, b_nor q m = d_nor p m) /\ forall c, (c < dim)%nat -> b_val q c = g p c.

(** Velocity and pressure functions at a point of the normal flux *)
Definition nvel (n : nat) (tr u : fv) (m : nat) : R := rsum n (fun a => tr a * comp n m u a).
Definition nprs (n : nat) (te q : fv) : R := rsum n (fun i => te i * q i).

(** A face magnified by [s]: its normal, which is not normalized, and its weight grow with it. *)
Definition magnified (s : R) (p : bpt) : bpt := BPt (b_w p) (fun m => s * b_nor p m) (b_side p) (b_val p) (s * b_fw p) (b_Z p).
