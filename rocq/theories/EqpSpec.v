(** What hyper-reduction is relied upon to compute. *)
From Coq Require Import Reals List Bool Lia Arith ZArith.
From Verif Require Import Outcome HdfModel LaBase BlockVec LinalgModel LinalgSpec ItfModel ItfSpec EqpModel.
Import ListNotations.
Local Open Scope nat_scope.

Definition lsum {A} (f : A -> R) (l : list A) : R := fold_right (fun a s => (f a + s)%R) 0%R l.

(** Values of a global function on the degrees of freedom of an element, orientation included. *)
Definition on_dofs (v : nat -> R) (ds : list Z) : vec := map (fun d => (dofs d * v (dofn d))%R) ds.

(** The integrand at quadrature point [m], weighted by [w], of the form with state [v], tested with [phi]. *)
Definition form_at (s : site) (m : nat) (w : R) (v phi : nat -> R) : R :=
  dot (List.length (st_dofs s)) (st_post s (st_quad s (st_fe s) m w (st_pre s (on_dofs v (st_dofs s))))) (on_dofs phi (st_dofs s)).

(** The same for the derivative of the integrand, applied to [psi]. *)
Definition grad_at (s : site) (m : nat) (w : R) (v phi psi : nat -> R) : R :=
  let n := List.length (st_dofs s) in
  rap n n (fun k _ => vnth (on_dofs phi (st_dofs s)) k)
    (mget (st_postm s (st_qgrad s (st_fe s) m w (st_pre s (on_dofs v (st_dofs s))))))
    (fun k _ => vnth (on_dofs psi (st_dofs s)) k) 0 0.

(** A place whose degrees of freedom exist and whose maps keep sizes. *)
Definition site_ok (vsize : nat) (s : site) : Prop :=
  (forall d, In d (st_dofs s) -> dofn d < vsize) /\
  (forall x, List.length x = List.length (st_dofs s) -> List.length (st_pre s x) = List.length (st_dofs s)) /\
  (forall x, List.length x = List.length (st_dofs s) -> List.length (st_post s x) = List.length (st_dofs s)) /\
  (forall m w x, List.length x = List.length (st_dofs s) -> List.length (st_quad s (st_fe s) m w x) = List.length (st_dofs s)).

(** Element matrices have the size of the element. *)
Definition site_grad_ok (s : site) : Prop :=
  forall m w x, List.length x = List.length (st_dofs s) ->
    let M := st_postm s (st_qgrad s (st_fe s) m w x) in
    dm_wf M /\ dm_h M = List.length (st_dofs s) /\ dm_w M = List.length (st_dofs s).

(** Degrees of freedom without orientation, as evaluation requires. *)
Definition plain (s : site) : Prop := st_dofs s <> [] /\ forall d, In d (st_dofs s) -> (0 <= d)%Z.

(** The integrand depends linearly on the quadrature weight. *)
Definition weight_linear (s : site) : Prop :=
  forall m w v phi, form_at s m w v phi = (w * form_at s m 1 v phi)%R.

(** The place number [id]. *)
Definition at_site (st : sites) (id : nat) (s : site) : Prop := nth_error st id = Some (Some s).

(** Samples in increasing order of place, then of quadrature point. *)
Definition sample_lt (a b : sinfo R) : Prop := (si_el a < si_el b \/ si_el a = si_el b /\ si_qp a < si_qp b)%Z.
Fixpoint ascending {A} (lt : A -> A -> Prop) (l : list A) : Prop :=
  match l with [] => True | a :: l => (forall b, In b l -> lt a b) /\ ascending lt l end.

(** The state of the reduced coefficients [x]. *)
Definition lift (B : dmat) (off : nat) (x : vec) (r : nat) : R := rsum (dm_w B) (fun c => (mget B (off + r) c * vnth x c)%R).
Definition mode (B : dmat) (off : nat) (j : nat) (r : nat) : R := mget B (off + r) j.

(** ** Interfaces *)

(** The integrand on the two sides; [side] selects the side of the test function. *)
Definition iform_at (s : isite) (m : nat) (w : R) (v1 v2 : nat -> R) (first : bool) (phi : nat -> R) : R :=
  let q := is_quad s m w (on_dofs v1 (is_d1 s)) (on_dofs v2 (is_d2 s)) in
  if first then dot (List.length (is_d1 s)) (fst q) (on_dofs phi (is_d1 s))
  else dot (List.length (is_d2 s)) (snd q) (on_dofs phi (is_d2 s)).

Definition isite_ok (n1 n2 : nat) (s : isite) : Prop :=
  (forall d, In d (is_d1 s) -> dofn d < n1) /\ (forall d, In d (is_d2 s) -> dofn d < n2) /\
  forall m w x y, List.length x = List.length (is_d1 s) -> List.length y = List.length (is_d2 s) ->
    List.length (fst (is_quad s m w x y)) = List.length (is_d1 s) /\ List.length (snd (is_quad s m w x y)) = List.length (is_d2 s).

(** ** Evaluation *)

Definition site_of (I : integ) (s : sinfo R) : option site := nth (Z.to_nat (si_el s)) (in_sites I) None.

Definition mark_fits (I : integ) (s : sinfo R) : Prop :=
  match in_mark I with
  | None => True
  | Some mk => exists a m, nth_error (in_attr I) (Z.to_nat (si_el s)) = Some a /\ (1 <= a)%Z /\ nth_error mk (Z.to_nat (a - 1)) = Some m /\ m <> 0%Z
  end.

(** A sample of an existing, marked place and an existing quadrature point. *)
Definition sample_fits (vsize : nat) (I : integ) (s : sinfo R) : Prop :=
  (0 <= si_el s)%Z /\ (exists st, site_of I s = Some st /\ site_ok vsize st /\ plain st) /\
  (exists nq, in_rule I = Some nq /\ (0 <= si_qp s < Z.of_nat nq)%Z) /\ mark_fits I s.

Definition integ_fits (vsize : nat) (I : integ) : Prop :=
  in_rule I <> None /\ exists l, in_smp I = Some l /\ forall s, In s l -> sample_fits vsize I s.

(** Contribution of a sample, of an integrator *)
Definition sample_form (I : integ) (v phi : nat -> R) (s : sinfo R) : R :=
  match site_of I s with Some st => form_at st (Z.to_nat (si_qp s)) (si_qw s) v phi | None => 0%R end.
Definition sample_grad (I : integ) (v phi psi : nat -> R) (s : sinfo R) : R :=
  match site_of I s with Some st => grad_at st (Z.to_nat (si_qp s)) (si_qw s) v phi psi | None => 0%R end.
Definition samples_of (I : integ) : list (sinfo R) := match in_smp I with Some l => l | None => [] end.
