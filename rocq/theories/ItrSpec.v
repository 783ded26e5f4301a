(** What the quadrature rules of ports are relied upon to do: reproduce the integrals over the faces of a port at the states that were
    on its two sides in the solves that were sampled. *)
From Coq Require Import Reals List Bool Lia Arith ZArith String.
From Verif Require Import Outcome TagsModel SnapshotModel SnapshotSpec HdfModel LaBase LinalgModel LinalgSpec ItfModel EqpModel EqpSpec EqpItfModel EqpItfSpec ItrModel.
Import ListNotations.
Local Open Scope nat_scope.

(** ** Sampled states *)

(** The variables as solutions are saved *)
Definition save_vars (T : tnet) : list string := if tn_sep T then tn_vars T else [EmptyString].
(** First block of subdomain [m] in a solve: its velocity, or its whole state with the velocity first *)
Definition state_of (e : event R) (m : nat) : nat -> R := match block e m 0 with Some b => fun k => nth k b 0%R | None => fun _ => 0%R end.
(** What a reference port connects, and its tag *)
Definition ref_of (T : tnet) (p : nat) : nat * nat * Z * Z := nth p (tn_refs T) (0, 0, 0%Z, 0%Z).
Definition side (T : tnet) (p : nat) (first : bool) : nat := let '(c1, c2, _, _) := ref_of T p in if first then c1 else c2.
Definition ref_tag (T : tnet) (p : nat) : port_tag :=
  let '(c1, c2, a1, a2) := ref_of T p in {| Mesh1 := nth c1 (tn_names T) EmptyString; Mesh2 := nth c2 (tn_names T) EmptyString; Attr1 := a1; Attr2 := a2 |}.
(** The states on the two sides of reference port [p] in some solve of the history [h] *)
Definition on_sides (T : tnet) (h : list (event R)) (p : nat) (v1 v2 : nat -> R) : Prop :=
  exists e q, In (e, q) (port_uses h (ref_tag T p)) /\ v1 = state_of e (pm1 q) /\ v2 = state_of e (pm2 q).

(** ** Integrals over the faces of a port *)

Definition basis_at (T : tnet) (c : nat) : dmat := match nth c (tn_bases T) None with Some B => B | None => DMat 0 0 [] end.
(** Test function: mode [j] of the side *)
Definition test_mode (T : tnet) (p : nat) (first : bool) (j : nat) : nat -> R := let c := side T p first in mode (basis_at T c) (nth c (tn_offs T) 0) j.

Definition at_faces (f : isite -> R) (st : list (option isite)) : R := lsum (fun so => match so with Some t => f t | None => 0%R end) st.
(** With the rule [w] of the full order model, and the sum of the absolute values of the integrand *)
Definition full_sum (w : list R) (st : list (option isite)) (v1 v2 : nat -> R) (first : bool) (phi : nat -> R) : R :=
  at_faces (fun t => rsum (List.length w) (fun m => iform_at t m (vnth w m) v1 v2 first phi)) st.
Definition abs_sum (w : list R) (st : list (option isite)) (v1 v2 : nat -> R) (first : bool) (phi : nat -> R) : R :=
  at_faces (fun t => rsum (List.length w) (fun m => Rabs (iform_at t m 1 v1 v2 first phi))) st.
(** With samples *)
Definition smp_sum (st : list (option isite)) (l : list (sinfo R)) (v1 v2 : nat -> R) (first : bool) (phi : nat -> R) : R :=
  lsum (fun s => match nth (Z.to_nat (si_el s)) st None with Some t => iform_at t (Z.to_nat (si_qp s)) (si_qw s) v1 v2 first phi | None => 0%R end) l.

(** The samples [l] stand for the rule [w] at these states, up to [tol]; weights below 1e-12 are dropped *)
Definition stands_for (tol : R) (w : list R) (st : list (option isite)) (l : list (sinfo R)) (v1 v2 : nat -> R) (first : bool) (phi : nat -> R) : Prop :=
  (Rabs (smp_sum st l v1 v2 first phi - full_sum w st v1 v2 first phi)
     <= tol * Rabs (full_sum w st v1 v2 first phi) + / 10 ^ 12 * abs_sum w st v1 v2 first phi)%R.

(** The samples are points of the faces *)
Definition of_faces (w : list R) (st : list (option isite)) (l : list (sinfo R)) : Prop :=
  forall s, In s l -> (0 <= si_el s < Z.of_nat (List.length st))%Z /\ (0 <= si_qp s < Z.of_nat (List.length w))%Z /\ (0 < si_qw s)%R.

(** ** Hypotheses *)

(** The integrand is a multiple of the weight *)
Definition iweight_linear (t : isite) : Prop := forall m w v1 v2 first phi, iform_at t m w v1 v2 first phi = (w * iform_at t m 1 v1 v2 first phi)%R.

(** A solution of the least squares problem: nonnegative, within the bounds *)
Definition admissible (Gs : list rmat) (lb ub : vec) (parts : list vec) : Prop :=
  List.length parts = List.length Gs /\
  (forall r, r < List.length Gs -> List.length (nth r parts []) = rm_r (nth r Gs (RMat 0 0 true []))) /\
  (forall part x, In part parts -> In x part -> (0 <= x)%R) /\
  forall c, c < List.length lb -> (vnth lb c <= vnth (transpose_mult (List.length lb) (combine Gs parts)) c <= vnth ub c)%R.
(** The solver finds one if there is one *)
Definition solves (T : tnet) (Gs : list rmat) (lb ub : vec) : Prop :=
  (exists parts, admissible Gs lb ub parts) -> admissible Gs lb ub (tn_solve T Gs lb ub).

Record net_ok (T : tnet) (dim : basis_tag -> nat) : Prop := {
  no_vars : tn_sep T = true -> tn_vars T <> [];
  no_refs : forall c1 c2 a1 a2, In (c1, c2, a1, a2) (tn_refs T) -> c1 < List.length (tn_names T) /\ c2 < List.length (tn_names T);
  no_types : forall t, In t (tn_types T) -> t < List.length (tn_refs T);
  no_comp : List.length (tn_bases T) = List.length (tn_names T) /\ List.length (tn_offs T) = List.length (tn_names T) /\ List.length (tn_size T) = List.length (tn_names T);
  no_basis : forall c, c < List.length (tn_names T) -> exists B, nth_error (tn_bases T) c = Some (Some B) /\ dm_wf B /\ nth c (tn_offs T) 0 + nth c (tn_size T) 0 <= dm_h B;
  no_size : forall c, c < List.length (tn_names T) -> nth c (tn_size T) 0 <= dim {| comp := nth c (tn_names T) EmptyString; var := nth 0 (save_vars T) EmptyString |};
  no_rules : forall o, In o (tn_rules T) -> exists w, o = Some w /\ w <> [] /\ forall x, In x w -> (0 <= x)%R;
  no_sites : forall k p so, k < List.length (tn_rules T) -> p < List.length (tn_refs T) -> In so (tn_sites T k p) ->
    exists t, so = Some t /\ isite_ok (nth (side T p true) (tn_size T) 0) (nth (side T p false) (tn_size T) 0) t /\ iweight_linear t;
  no_split : forall n, list_sum (tn_split T n) = n;
  no_junk : forall n, List.length (tn_junk T n) = n }.

Definition rule_of (T : tnet) (k : nat) : list R := match nth k (tn_rules T) None with Some w => w | None => [] end.

(** The rule of integrator [k] at reference port [p] stands for the full one at all sampled states *)
Definition good (T : tnet) (tol : R) (h : list (event R)) (k p : nat) (l : list (sinfo R)) : Prop :=
  of_faces (rule_of T k) (tn_sites T k p) l /\
  forall v1 v2 first j, on_sides T h p v1 v2 -> j < dm_w (basis_at T (side T p first)) -> stands_for tol (rule_of T k) (tn_sites T k p) l v1 v2 first (test_mode T p first j).

(** The solver does its work on the systems of this training *)
Definition solver_works (T : tnet) (tol : R) (s : sg R) : Prop := forall p k snap1 snap2 pairs nqe Gs rhs,
  port_snaps T s p = Ok (snap1, snap2, pairs) -> port_system T snap1 snap2 pairs p k = Ok (nqe, (Gs, rhs)) ->
  solves T Gs (fst (eqp_bounds tol rhs)) (snd (eqp_bounds tol rhs)).

(** ** Evaluation *)

(** Every port joins subdomains of the components its reference port joins *)
Definition ports_ok (T : tnet) (ct : list nat) (ports : list rport) : Prop :=
  List.length ports = List.length (tn_types T) /\ (forall c, In c ct -> c < List.length (tn_names T)) /\
  forall q t, nth_error (tn_types T) q = Some t -> exists pt, nth_error ports q = Some pt /\ nth_error ct (rp_m1 pt) = Some (side T t true) /\ nth_error ct (rp_m2 pt) = Some (side T t false).

(** The reduced state [x] is, on the two sides of each port, a state that was sampled there *)
Definition sampled_state (T : tnet) (h : list (event R)) (F : iform) (x : vec) : Prop :=
  forall q t, nth_error (tn_types T) q = Some t -> exists v1 v2, on_sides T h t v1 v2 /\
    (forall k, k < nth (side T t true) (tn_size T) 0 -> istate F x (rp_m1 (iport F q)) k = v1 k) /\
    (forall k, k < nth (side T t false) (tn_size T) 0 -> istate F x (rp_m2 (iport F q)) k = v2 k).

(** Sum over the integrators and the ports of what they contribute to the equation of mode [j] of subdomain [i] *)
Definition over_ports (T : tnet) (F : iform) (i j : nat) (g : nat -> nat -> bool -> (nat -> R) -> R) : R :=
  rsum (List.length (tn_rules T)) (fun k => rsum (List.length (fo_ports F)) (fun q =>
    ((if i =? rp_m1 (iport F q) then g k q true (imode F i j) else 0) + (if i =? rp_m2 (iport F q) then g k q false (imode F i j) else 0))%R)).
(** The full order term, and the bound of the error *)
Definition port_full (T : tnet) (F : iform) (x : vec) (k q : nat) (first : bool) (phi : nat -> R) : R :=
  full_sum (rule_of T k) (fo_sites F k q) (istate F x (rp_m1 (iport F q))) (istate F x (rp_m2 (iport F q))) first phi.
Definition port_bound (T : tnet) (tol : R) (F : iform) (x : vec) (k q : nat) (first : bool) (phi : nat -> R) : R :=
  (tol * Rabs (port_full T F x k q first phi) + / 10 ^ 12 * abs_sum (rule_of T k) (fo_sites F k q) (istate F x (rp_m1 (iport F q))) (istate F x (rp_m2 (iport F q))) first phi)%R.
