(** What the reduced tensor and the full-order operator are supposed to be. *)
From Coq Require Import Reals List Bool Lia Arith ZArith.
From Verif Require Import Outcome HdfModel LaBase LinalgModel BlockVec MbModel ItfModel ItfSpec EqpModel EqpSpec IntegModel IntegSpec NsTensorModel.
Import ListNotations.
Local Open Scope R_scope.

(** Elements of a space with [n] unknowns, whose integration points carry no wind. *)
Definition elements_fit (n dim : nat) (els : list celem) : Prop :=
  forall el, In el els -> List.length (ce_dofs el) = (ce_nd el * dim)%nat /\ (forall d, In d (ce_dofs el) -> (dofn d < n)%nat) /\
    forall p, In p (ce_rule el) -> q_vQ p = None.

(** The convection form: velocity [u] transported by [w], tested with [v]. *)
Definition convection (dim : nat) (els : list celem) (w u v : nat -> R) : R :=
  lsum (fun el => let nd := ce_nd el in let loc z := vnth (on_dofs z (ce_dofs el)) in
    integral (fun p => rsum dim (fun d => rsum dim (fun e =>
      field 0 nd (q_shape p) (loc v) d * field 0 nd (q_shape p) (loc w) e * deriv nd (dphys dim p) (loc u) d e))) (ce_rule el)) els.

(** A full-order operator on [ns] velocities of the given sizes. *)
Definition fom_ok (op : nsop) (ns : nat) (size : nat -> nat) : Prop :=
  offsets (no_off op) ns size /\ (nsum ns size <= no_n op)%nat.
(** Entry (p, q) of the linear operator. *)
Definition lin_entry (op : nsop) (nu p q : nat) : R :=
  if (p <? nu)%nat then if (q <? nu)%nat then no_M op p q else no_Bt op p (q - nu)%nat
  else if (q <? nu)%nat then no_B op (p - nu)%nat q else match no_C op with None => 0 | Some C => C (p - nu)%nat (q - nu)%nat end.
(** Velocity of subdomain [m]. *)
Definition part (size : nat -> nat) (x : vec) (m : nat) : vec := map (fun k => vnth x (nsum m size + k)) (seq 0 (size m)).
(** Moving along a line. *)
Definition along (n : nat) (x d : vec) (t : R) : vec := map (fun i => vnth x i + t * vnth d i) (seq 0 n).
