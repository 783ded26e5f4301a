(** Vocabulary for the statements about convection tensors. *)
From Coq Require Import ZArith List Bool String.
From Verif Require Import Outcome HdfModel HdfSpec LaBase TenModel.
Import ListNotations.
Local Open Scope nat_scope.

(** Same extents and same entries. *)
Definition same_tensor {D} (t t' : tensor D) : Prop :=
  dt_i t' = dt_i t /\ dt_j t' = dt_j t /\ dt_k t' = dt_k t /\
  forall i j k, i < dt_i t -> j < dt_j t -> k < dt_k t -> tensor_at t' i j k = tensor_at t i j k.
(** At least one basis function; the entries are there. *)
Definition good_tensor {D} (t : tensor D) : Prop := tensor_ok t /\ 0 < dt_i t /\ 0 < dt_j t /\ 0 < dt_k t.

(** Subdomain [m] is an instance of the component called [nm]. *)
Definition instance_of (c : setup) (m : nat) (nm : string) : Prop :=
  exists k, nth_error (s_types c) m = Some k /\ nth_error (s_names c) k = Some nm.

(** A steady Navier-Stokes problem with tensors over a component topology. *)
Definition by_tensors (c : setup) : Prop := s_bycomp c = true /\ s_lf c = false /\ s_nl c = NlTensor.

Definition is_init (k : call) : bool := match k with InitHandler => true | _ => false end.
Definition is_alloc (k : call) : bool := match k with Allocate => true | _ => false end.
Definition is_fill (k : call) : bool := match k with BuildTensors | LoadElems _ => true | _ => false end.
Definition is_sub (k : call) : bool := match k with AssembleNlin | Project | LoadOperator _ => true | _ => false end.
Definition times (f : call -> bool) (ks : list call) : nat := List.length (filter f ks).

(** Each member is set at most once, by a call made for the configured building level. *)
Record once_each (c : setup) (ks : list call) : Prop := {
  oe_init : times is_init ks = 1;
  oe_alloc : times is_alloc ks <= 1;
  oe_fill : times is_fill ks <= 1;
  oe_sub : times is_sub ks <= 1;
  oe_assemble : In AssembleNlin ks -> s_nl c = NlTensor -> s_level c = LevComponent;
  oe_project : In Project ks -> s_nl c = NlTensor -> s_level c <> LevComponent }.
