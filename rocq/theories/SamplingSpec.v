(** Independent specifications for sampling: what a partition of the samples over processes is, what the
    mixed-radix numbering of a grid is, and which multi-indices lie in a grid. *)
From Coq Require Import ZArith List.
Import ListNotations.
Open Scope Z_scope.

(** [owns r i]: process [r] reports sample [i] as its own job.  The samples [0..total-1] are split fairly over
    [procs] processes. *)
Record fair_partition (total : Z) (procs : nat) (owns : nat -> Z -> Prop) : Prop := {
  fp_exactly_one : forall i, 0 <= i < total ->
      exists r, ((r < procs)%nat /\ owns r i) /\ forall r', (r' < procs)%nat -> owns r' i -> r' = r;
  fp_only_samples : forall r i, (r < procs)%nat -> owns r i -> 0 <= i < total;
  fp_in_order : forall r1 r2 i1 i2, (r1 < r2 < procs)%nat -> owns r1 i1 -> owns r2 i2 -> i1 < i2;
  fp_ranges : exists lo size : nat -> Z,
      (forall r, (r < procs)%nat -> 0 <= size r /\ forall i, owns r i <-> lo r <= i < lo r + size r) /\
      (forall r1 r2, (r1 < procs)%nat -> (r2 < procs)%nat -> size r1 <= size r2 + 1) }.

(** A multi-index lies in the grid with the given numbers of points per dimension. *)
Definition in_grid (sizes idx : list Z) : Prop := Forall2 (fun s i => 0 <= i < s) sizes idx.

(** Number of grid points. *)
Definition grid_size (sizes : list Z) : Z := fold_right Z.mul 1 sizes.

(** Row-major position of a multi-index: the last dimension varies fastest. *)
Fixpoint grid_position (sizes idx : list Z) : Z :=
  match sizes, idx with
  | _ :: ss, i :: is => i * grid_size ss + grid_position ss is
  | _, _ => 0
  end.

(** The samples [0..n-1] in increasing order, each paired with its own file index. *)
Definition all_samples (n : nat) (file_off : Z) : list (Z * Z) :=
  map (fun k => (Z.of_nat k, Z.of_nat k + file_off)) (seq 0 n).
