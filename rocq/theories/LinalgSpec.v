(** What the dense routines of src/linalg_utils.cpp are relied upon to compute, in mathematical terms. *)
From Coq Require Import Reals List Bool ZArith Lia Arith.
From Verif Require Import Outcome LaBase LinalgModel.
Import ListNotations.
Local Open Scope R_scope.

(** Entry (i, j) of a libROM matrix (row-major storage). *)
Definition rget (m : rmat) (i j : nat) : R := vnth (rm_buf m) (i * rm_c m + j).
Definition rm_wf (m : rmat) : Prop := length (rm_buf m) = (rm_r m * rm_c m)%nat.

(** A list of row numbers of a matrix with [h] rows; repetitions allowed. *)
Definition rows_of (h : nat) (rows : list Z) : Prop :=
  rows <> [] /\ forall z, In z rows -> (0 <= z < Z.of_nat h)%Z.

(** Row [r], column [c] of the matrix made of the selected rows. *)
Definition sel (m : dmat) (rows : list Z) (r c : nat) : R := mget m (Z.to_nat (nth r rows 0%Z)) c.

(** The sub-matrix as a matrix of its own. *)
Definition extract (m : dmat) (rows : list Z) : dmat :=
  DMat (length rows) (dm_w m)
    (flat_map (fun c => map (fun r => sel m rows r c) (seq 0 (length rows))) (seq 0 (dm_w m))).

(** Ordinary products. *)
Definition mat_vec (m : dmat) (x : vec) (i : nat) : R := rsum (dm_w m) (fun c => mget m i c * vnth x c).
Definition mat_t_vec (m : dmat) (x : vec) (c : nat) : R := rsum (dm_h m) (fun r => mget m r c * vnth x r).

(** Entry (i, j) of R^t A P for matrices given by their entries, A being p x q. *)
Definition rap (p q : nat) (r : nat -> nat -> R) (a : nat -> nat -> R) (b : nat -> nat -> R) (i j : nat) : R :=
  rsum p (fun k => r k i * rsum q (fun l => a k l * b l j)).

(** An operator that computes [op_h] numbers out of [op_w]. *)
Definition op_wf (A : operator) : Prop := forall x, length x = op_w A -> length (op_mul A x) = op_h A.

(** An operator given by a matrix of entries. *)
Definition op_matrix (A : operator) (a : nat -> nat -> R) : Prop :=
  forall x, length x = op_w A -> length (op_mul A x) = op_h A /\
    forall i, (i < op_h A)%nat -> vnth (op_mul A x) i = rsum (op_w A) (fun j => a i j * vnth x j).

(** Entry (i, j, k) of a third-order tensor. *)
Definition tget (T : tensor) (i j k : nat) : R := vnth (t_buf T) (i + j * t_i T + k * (t_i T * t_j T)).
Definition t_wf (T : tensor) : Prop := length (t_buf T) = (t_i T * t_j T * t_k T)%nat.

(** sum_ij T_ijk x_i y_j *)
Definition contraction (T : tensor) (x y : nat -> R) (k : nat) : R :=
  rsum (t_j T) (fun j => rsum (t_i T) (fun i => tget T i j k * x i * y j)).

(** ** Orthogonalization *)

Definition colv (cols : list vec) (k : nat) : vec := nth k cols [].
Definition cols_wf (n : nat) (cols : list vec) : Prop := forall v, In v cols -> length v = n.

Definition orthonormal (n : nat) (cols : list vec) : Prop :=
  forall i j, (i < length cols)%nat -> (j < length cols)%nat ->
    dot n (colv cols i) (colv cols j) = if (i =? j)%nat then 1 else 0.

Definition orthogonal_to (n : nat) (us vs : list vec) : Prop :=
  forall u v, In u us -> In v vs -> dot n u v = 0.

(** Nonzero, pairwise orthogonal columns. *)
Definition orthogonal_basis (n : nat) (cols : list vec) : Prop :=
  (forall i, (i < length cols)%nat -> dot n (colv cols i) (colv cols i) <> 0) /\
  (forall i j, (i < length cols)%nat -> (j < length cols)%nat -> i <> j -> dot n (colv cols i) (colv cols j) = 0).

Definition lin_indep (n : nat) (cols : list vec) : Prop :=
  forall a : nat -> R,
    (forall i, (i < n)%nat -> rsum (length cols) (fun k => a k * vnth (colv cols k) i) = 0) ->
    forall k, (k < length cols)%nat -> a k = 0.

(** [v] is a combination of the given vectors. *)
Definition in_span (n : nat) (cols : list vec) (v : vec) : Prop :=
  exists a : nat -> R, forall i, (i < n)%nat -> vnth v i = rsum (length cols) (fun k => a k * vnth (colv cols k) i).

Definition same_span (n : nat) (us vs : list vec) : Prop :=
  forall w, in_span n us w <-> in_span n vs w.

(** ** Line search *)

(** The k-th trial point: 0, s, s g, s g^2, ... *)
Definition trial (g s : R) (k : nat) : R := match k with O => 0 | S k => s * g ^ k end.
