(** What the data of an unsteady run are for, what its monitors report, where it starts. *)
From Coq Require Import Reals List Bool Lia Arith ZArith.
From Verif Require Import Outcome LaBase BlockVec MbModel MbSpec IntegModel UnsteadyModel UnsteadySpec ClkModel.
Import ListNotations.
Local Open Scope list_scope.
Local Open Scope R_scope.

(** The data of a problem at time [t]. *)
Definition at_time {D} (l : list (option (R -> D))) (t : R) : list (option D) := map (option_map (fun f => f t)) l.
(** The right-hand side of the data at time [t]. *)
Definition rhs_at {D} (F : forms D) (p : data D) (t : R) : bvec := fm_rhs F (at_time (da_f p) t) (at_time (da_ud p) t).
(** The operators of the run, convection with the boundary data of the time it is evaluated at. *)
Definition ops_at {D} (F : forms D) (p : data D) : uops := UOps (fun t => fm_conv F (at_time (da_ud p) t)) (fun _ => fm_itf F) (fm_mass F) (fm_solve F).

(** [n] steps from [u0] at time [t0], forcing and boundary data of the linear part taken [shift] steps after the beginning of each
    step (0: explicit, 1: implicit). *)
Definition timely {D} (c : ucfg) (F : forms D) (p : data D) (vs : nat -> nat -> nat) (u0 : bvec) (t0 shift : R) (n : nat) (Y : nat -> vec) (Us : nat -> bvec) : Prop :=
  Us O = u0 /\ (forall k, (k <= n)%nat -> same_solution (uc_ns c) vs (Y k) (Us k) /\ bv_off (Us k) = bv_off u0) /\
  forall k, (k < n)%nat -> let t := t0 + INR k * uc_dt c in advances c (ops_at F p) vs (rhs_at F p (t + shift * uc_dt c)) t (Y k) (Y (S k)).

(** Forms of the right size. *)
Definition forms_ok {D} (c : ucfg) (F : forms D) (p : data D) (vs : nat -> nat -> nat) : Prop :=
  setup_ok c (ops_at F p) vs /\ forall t, sub_shaped (uc_ns c) 2 vs (rhs_at F p t).

(** ** Monitors *)

(** Only numbers. *)
Definition numbers (l : list dbl) : Prop := forall x, In x l -> x <> NaN.
(** Point [i] of an element: its local CFL number, if the velocity there is a number. *)
Definition local_cfl (three : bool) (dt h : R) (e : velem) (i : nat) (x : R) : Prop := exists ux uy,
  nth_error (ve_ux e) i = Some (Num ux) /\ nth_error (ve_uy e) i = Some (Num uy) /\
  if three then exists uz, nth_error (ve_uz e) i = Some (Num uz) /\ x = Rabs (dt * ux / h) + Rabs (dt * uy / h) + Rabs (dt * uz / h)
  else x = Rabs (dt * ux / h) + Rabs (dt * uy / h).
(** [x] is the local CFL number of some point of some element. *)
Definition some_cfl (three : bool) (dt : R) (subs : list (R * list velem)) (x : R) : Prop := exists order es e i,
  In (order, es) subs /\ In e es /\ local_cfl three dt (ve_size e / order) e i x.
(** [M] is the largest of the numbers [P], zero if there is none. *)
Definition largest (P : R -> Prop) (M : R) : Prop := 0 <= M /\ (forall x, P x -> x <= M) /\ (M = 0 \/ P M).
(** All components have a value at each point. *)
Definition full_elem (three : bool) (e : velem) : Prop := List.length (ve_uy e) = List.length (ve_ux e) /\ (three = true -> List.length (ve_uz e) = List.length (ve_ux e)).
Definition full_subs (three : bool) (subs : list (R * list velem)) : Prop := forall order es e, In (order, es) subs -> In e es -> full_elem three e.

(** ** Initial condition *)

(** What the user calls: a problem is set, a run starts. *)
Inductive ic_call (D : Type) := CProblem (ptr : list (option (R -> D))) | CStart.
Arguments CProblem {D}. Arguments CStart {D}.
Definition ic_step {D} (zero : D) (s : icst D) (c : ic_call D) : outcome (icst D) := match c with CProblem p => set_problem zero p s | CStart => project_ic zero s end.
(** Initial velocity ([i = 0]) and pressure ([i = 1]) of a problem that gives both functions or none. *)
Definition wanted {D} (zero : D) (ptr : list (option (R -> D))) (i : nat) : D := match nth_error ptr i with Some (Some f) => f 0 | _ => zero end.
