(** What the file of the positions of quadrature points says. *)
From Coq Require Import ZArith List Bool String Ascii Reals.
From Verif Require Import Outcome HdfModel HdfSpec EqcModel.
Import ListNotations.
Open Scope list_scope.

(** The table that a reader finds for a component. *)
Definition table (file : hgroup R) (name : string) : outcome (dense R) :=
  let* g := h5_open_group file "components" in
  let* c := h5_open_group g (name ++ "_integ0") in
  read_dense c "coords".

(** The number of components that a reader finds. *)
Definition count (file : hgroup R) : outcome Z :=
  let* g := h5_open_group file "components" in h5_read_attr g "number_of_components".

(** A component with a trained rule of samples [s] that is within the mesh and the points [np] of the integrator; positions have [dim]
    coordinates. *)
Definition trained (dim : nat) (f : qform) (s : list (sinfo R)) : Prop :=
  (exists q l np, q_dnfi f = q :: l /\ qi_rule q = Some np /\ qi_samples q = Some s /\
    forall e, In e s -> (0 <= si_el e < Z.of_nat (q_nel f))%Z /\ (0 <= si_qp e < Z.of_nat np)%Z) /\
  s <> [] /\ forall el qp, List.length (q_pos f el qp) = dim.

(** Row [i] of a table has the position of sample [i], in its first [dim] columns. *)
Definition positions (dim : nat) (f : qform) (s : list (sinfo R)) (m : dense R) : Prop :=
  dm_h m = List.length s /\ dm_w m = 3 /\
  forall i j e, nth_error s i = Some e -> j < dim -> dense_at m i j = nth_error (q_pos f (si_el e) (si_qp e)) j.

(** What has to be there of a component: its form, and if it has domain integrators, the points and the non-empty trained rule of the first. *)
Definition complete (f : option qform) : Prop :=
  exists f', f = Some f' /\ forall q l, q_dnfi f' = q :: l -> exists np s, qi_rule q = Some np /\ qi_samples q = Some s /\ s <> [].
