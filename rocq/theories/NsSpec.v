(** What the operators of the steady Navier-Stokes solver are supposed to compute. *)
From Coq Require Import Reals List Bool Lia Arith.
From Verif Require Import Outcome LaBase LinalgModel LinalgSpec BlockVec TagsModel RomModel RomSpec NsModel.
Import ListNotations.
Local Open Scope R_scope.

(** Where the velocity unknowns of subdomain [m] start, and how many there are. *)
Definition vel (h : rom) (off : list nat) (m : nat) : nat := nth (place h m 0) off 0%nat.
Definition vsize (h : rom) (size : nat -> nat) (m : nat) : nat := size (place h m 0).
(** Velocity of subdomain [m]. *)
Definition vel_of (h : rom) (off : list nat) (size : nat -> nat) (x : vec) (m : nat) : vec :=
  map (fun k => vnth x (vel h off m + k)) (seq 0 (vsize h size m)).
(** The velocities of all subdomains one after the other. *)
Definition velocities (h : rom) (off : list nat) (size : nat -> nat) (x : vec) : vec :=
  flat_map (vel_of h off size x) (seq 0 (rh_nsub h)).
(** Position [p] is not a velocity unknown. *)
Definition no_velocity (h : rom) (off : list nat) (size : nat -> nat) (p : nat) : Prop :=
  forall m k, (m < rh_nsub h)%nat -> (k < vsize h size m)%nat -> p <> (vel h off m + k)%nat.

(** A flow ROM: two variables, block sizes, a square matrix. *)
Definition flow_rom (h : rom) (off : list nat) (size : nat -> nat) (lin : smat) : Prop :=
  (0 < rh_nsub h)%nat /\ rh_nvar h = 2%nat /\ offsets off (blocks h) size /\
  sm_h lin = nsum (blocks h) size /\ sm_w lin = nsum (blocks h) size.

(** The matrix can take entry (a, b). *)
Definition can_take (m : smat) (a b : nat) : Prop := sm_fin m = false \/ sm_has m a b = true.
(** It can take all entries of the velocity blocks of each subdomain. *)
Definition takes_velocity (h : rom) (off : list nat) (size : nat -> nat) (lin : smat) : Prop :=
  forall m i j, (m < rh_nsub h)%nat -> (i < vsize h size m)%nat -> (j < vsize h size m)%nat ->
    can_take lin (vel h off m + i) (vel h off m + j).

(** Cubes of the size of the velocity block. *)
Definition tensors_fit (h : rom) (size : nat -> nat) (hs : list tensor) : Prop :=
  List.length hs = rh_nsub h /\
  forall m, (m < rh_nsub h)%nat -> let T := nth m hs (Tensor 0 0 0 []) in
    t_wf T /\ t_i T = vsize h size m /\ t_j T = vsize h size m /\ t_k T = vsize h size m.

(** Adding vectors of length [n]. *)
Definition vplus (n : nat) (x d : vec) (t : R) : vec := map (fun i => vnth x i + t * vnth d i) (seq 0 n).

(** Unknowns of the velocity in front of those of subdomain [m] when only velocities are stored. *)
Definition ustart (h : rom) (size : nat -> nat) (m : nat) : nat := nsum m (vsize h size).
(** Derivative in direction [d] of component [k] of a function on vectors of length [n]. *)
Definition has_derivative (n : nat) (f : vec -> vec) (x d : vec) (k : nat) (l : R) : Prop :=
  derivable_pt_lim (fun t => vnth (f (vplus n x d t)) k) 0 l.
(** Blocks of a matrix over the velocities of all subdomains: their sizes, and that [lin] has an entry wherever they have one. *)
Definition blocks_fit (h : rom) (off : list nat) (size : nat -> nat) (lin : smat) (G : nat -> nat -> smat) : Prop :=
  forall m n, (m < rh_nsub h)%nat -> (n < rh_nsub h)%nat -> sm_h (G m n) = vsize h size m /\ sm_w (G m n) = vsize h size n /\
    forall i j, (i < vsize h size m)%nat -> (j < vsize h size n)%nat -> sm_ent (G m n) i j <> None -> can_take lin (vel h off m + i) (vel h off n + j).
(** The velocity of subdomain [m] is as large as block [2 m]: so it is without separate variables and when the two variables of a
    subdomain are neighbours. *)
Definition alternate (h : rom) (size : nat -> nat) : Prop :=
  rh_sep h = true -> forall m, (m < rh_nsub h)%nat -> size (2 * m)%nat = vsize h size m.
