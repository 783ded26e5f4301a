(** What it means to solve a system. *)
From Coq Require Import Reals List.
From Verif Require Import LaBase ItfModel ItfSpec DirModel.

Definition solves (fes : list fespace) (A : place -> place -> R) (b x : place -> R) : Prop :=
  forall p, in_range fes p ->
    rsum (List.length fes) (fun J => rsum (fe_size (fth fes J)) (fun c => A p (J, c) * x (J, c))%R) = b p.

Definition symmetric_on (fes : list fespace) (A : place -> place -> R) : Prop :=
  forall p q, in_range fes p -> in_range fes q -> A p q = A q p.

(** The blocks of every face are for its degrees of freedom. *)
Definition blocks_fit (fes : list fespace) (ports : list itf_port) (good : nat -> nat -> face -> Prop) : Prop :=
  forall p f, In (p, f) (real_faces ports) ->
    good (List.length (side_dofs fes p f 0)) (List.length (side_dofs fes p f 1)) f.
