(** Reduced systems as systems over the blocks of the reduced basis. *)
From Coq Require Import Reals List.
From Verif Require Import LaBase LinalgModel RomModel RomSpec MbModel MbSpec ItfModel ItfSpec BupModel BupSpec.

(** One space for each reduced block, with the number of basis functions of its unknown. *)
Definition reduced_spaces (h : rom) (fes : list fespace) : Prop :=
  List.length fes = blocks h /\ forall m v, unknown h m v -> fe_size (fth fes (place h m v)) = basis_size h m v.

(** A full-order system is symmetric. *)
Definition symmetric_full (h : rom) (dim : nat -> nat) (a : nat -> nat -> nat -> nat -> nat -> nat -> R) : Prop :=
  forall m v m' v' i j, unknown h m v -> unknown h m' v' -> i < full_size h dim m v -> j < full_size h dim m' v' ->
    a m v m' v' i j = a m' v' m v j i.
