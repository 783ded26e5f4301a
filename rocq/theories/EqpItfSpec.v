(** What hyper-reduced interface terms are relied upon to compute. *)
From Coq Require Import Reals List Bool Lia Arith ZArith.
From Verif Require Import Outcome HdfModel LaBase LinalgModel LinalgSpec ItfModel ItfSpec EqpModel EqpSpec EqpItfModel.
Import ListNotations.
Local Open Scope nat_scope.

(** ** A form and its subdomains *)

Definition bas (F : iform) (i : nat) : dmat := match nth i (fo_bases F) None with Some B => B | None => DMat 0 0 [] end.
Definition voff (F : iform) (i : nat) : nat := nth i (fo_offs F) 0.
(** First entry and number of entries of subdomain [i] in vectors of reduced coefficients *)
Definition width (F : iform) (i : nat) : nat := dm_w (bas F i).
Fixpoint start (F : iform) (i : nat) : nat := match i with 0 => 0 | S i => start F i + width F i end.
Definition coefs (F : iform) (x : vec) (i : nat) : vec := map (fun c => vnth x (start F i + c)) (seq 0 (width F i)).
(** State on subdomain [i] *)
Definition istate (F : iform) (x : vec) (i : nat) : nat -> R := lift (bas F i) (voff F i) (coefs F x i).
Definition imode (F : iform) (i j : nat) : nat -> R := mode (bas F i) (voff F i) j.

(** ** Integrals over faces *)

(** Derivative of the integrand: test function [phi] on side [a], increment [psi] on side [b] ([true] is the first) *)
Definition igrad_at (s : isite) (m : nat) (w : R) (v1 v2 : nat -> R) (a b : bool) (phi psi : nat -> R) : R :=
  let da := if a then is_d1 s else is_d2 s in
  let db := if b then is_d1 s else is_d2 s in
  rap (List.length da) (List.length db) (fun k _ => vnth (on_dofs phi da) k)
    (mget (is_grad s m w (on_dofs v1 (is_d1 s)) (on_dofs v2 (is_d2 s)) a b)) (fun k _ => vnth (on_dofs psi db) k) 0 0.

Definition isite_grad_ok (s : isite) : Prop :=
  forall m w x y a b, List.length x = List.length (is_d1 s) -> List.length y = List.length (is_d2 s) ->
    let M := is_grad s m w x y a b in
    dm_wf M /\ dm_h M = List.length (if a then is_d1 s else is_d2 s) /\ dm_w M = List.length (if b then is_d1 s else is_d2 s).

Definition iplain (s : isite) : Prop :=
  is_d1 s <> [] /\ is_d2 s <> [] /\ (forall d, In d (is_d1 s) -> (0 <= d)%Z) /\ (forall d, In d (is_d2 s) -> (0 <= d)%Z).

Definition isite_of (st : list (option isite)) (s : sinfo R) : option isite := nth (Z.to_nat (si_el s)) st None.

(** A sample of an existing face and an existing quadrature point *)
Definition isample_fits (n1 n2 nq : nat) (st : list (option isite)) (s : sinfo R) : Prop :=
  (0 <= si_el s)%Z /\ (exists t, isite_of st s = Some t /\ isite_ok n1 n2 t /\ iplain t) /\ (0 <= si_qp s < Z.of_nat nq)%Z.

(** ** Sums over integrators, ports and samples *)

Definition ismp (F : iform) (k p : nat) : list (sinfo R) :=
  match nth (p + k * List.length (fo_ports F)) (fo_smp F) None with Some l => l | None => [] end.
Definition iport (F : iform) (p : nat) : rport := nth p (fo_ports F) (RPort 0 0).

(** Contribution of a sample of port [p], integrator [k], tested with basis function [j] of subdomain [i] *)
Definition isample_form (F : iform) (x : vec) (k p i j : nat) (s : sinfo R) : R :=
  let m1 := rp_m1 (iport F p) in
  let m2 := rp_m2 (iport F p) in
  match isite_of (fo_sites F k p) s with
  | None => 0%R
  | Some t =>
      let f := iform_at t (Z.to_nat (si_qp s)) (si_qw s) (istate F x m1) (istate F x m2) in
      ((if i =? m1 then f true (imode F i j) else 0) + (if i =? m2 then f false (imode F i j) else 0))%R
  end.

(** The same for the derivative: row basis function [a] of subdomain [i], column basis function [b] of subdomain [i'] *)
Definition isample_grad (F : iform) (x : vec) (k p i i' a b : nat) (s : sinfo R) : R :=
  let m1 := rp_m1 (iport F p) in
  let m2 := rp_m2 (iport F p) in
  match isite_of (fo_sites F k p) s with
  | None => 0%R
  | Some t =>
      let f := fun u v => igrad_at t (Z.to_nat (si_qp s)) (si_qw s) (istate F x m1) (istate F x m2) u v (imode F i a) (imode F i' b) in
      ((if (i =? m1) && (i' =? m1) then f true true else 0) + (if (i =? m1) && (i' =? m2) then f true false else 0) +
       (if (i =? m2) && (i' =? m1) then f false true else 0) + (if (i =? m2) && (i' =? m2) then f false false else 0))%R
  end.

(** [nd i] is the number of degrees of freedom of the variable on subdomain [i]. *)
Definition form_fits (F : iform) (nd : nat -> nat) : Prop :=
  List.length (fo_offs F) = List.length (fo_bases F) /\
  (forall i, i < List.length (fo_bases F) -> exists B, nth_error (fo_bases F) i = Some (Some B) /\ dm_wf B /\ 0 < dm_w B /\ voff F i + nd i <= dm_h B) /\
  List.length (fo_smp F) = List.length (fo_ports F) * List.length (fo_rules F) /\
  (forall p, p < List.length (fo_ports F) -> rp_m1 (iport F p) < List.length (fo_bases F) /\ rp_m2 (iport F p) < List.length (fo_bases F)) /\
  (forall k, k < List.length (fo_rules F) -> exists nq, nth_error (fo_rules F) k = Some (Some nq) /\
    forall p, p < List.length (fo_ports F) -> forall s, In s (ismp F k p) ->
      isample_fits (nd (rp_m1 (iport F p))) (nd (rp_m2 (iport F p))) nq (fo_sites F k p) s).

Definition form_grad_fits (F : iform) : Prop :=
  forall k p s t, k < List.length (fo_rules F) -> p < List.length (fo_ports F) -> In s (ismp F k p) -> isite_of (fo_sites F k p) s = Some t -> isite_grad_ok t.

(** Blocks of the right size; a finalized block has an entry everywhere *)
Definition grid_fits (F : iform) (g : grid) : Prop :=
  gr_n g = List.length (fo_bases F) /\
  forall i j, i < gr_n g -> j < gr_n g -> sm_h (gr_at g i j) = width F i /\ sm_w (gr_at g i j) = width F j /\
    (sm_fin (gr_at g i j) = true -> forall a b, a < width F i -> b < width F j -> sm_has (gr_at g i j) a b = true).
