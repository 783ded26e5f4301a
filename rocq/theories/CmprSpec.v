(** What comparing two solutions means. *)
From Coq Require Import Reals List Arith.
From Verif Require Import LaBase BlockVec MbModel MbSpec CmprModel.
Local Open Scope R_scope.

(** The integral (by the rule of the space) of the squared length of the field with coefficients [c]. *)
Definition square_integral (fs : fspace) (c : nat -> R) : R :=
  rsum (fs_np fs) (fun q => fs_w fs q * rsum (fs_vdim fs) (fun d =>
    rsum (fs_nd fs) (fun i => fs_shape fs q d i * c i) * rsum (fs_nd fs) (fun i => fs_shape fs q d i * c i))).

(** Over all subdomains, for variable [v] of the solutions with entries [c m v i]. *)
Definition total_square (ns : nat) (fes : nat -> fspace) (nv v : nat) (c : nat -> nat -> nat -> R) : R :=
  rsum ns (fun m => square_integral (fes (by_sub nv m v)) (c m v)).

(** The spaces fit the sizes of the blocks, have at least one component and no negative weight. *)
Definition spaces_ok (ns nv : nat) (size : nat -> nat -> nat) (fes : nat -> fspace) : Prop :=
  forall m v, (m < ns)%nat -> (v < nv)%nat ->
    fs_nd (fes (by_sub nv m v)) = size m v /\ (0 < fs_vdim (fes (by_sub nv m v)))%nat /\
    forall q, (q < fs_np (fes (by_sub nv m v)))%nat -> 0 <= fs_w (fes (by_sub nv m v)) q.
