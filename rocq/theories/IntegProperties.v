(** Properties of the nonlinear integrators. *)
From Coq Require Import Reals List Bool Lia Arith Lra FunctionalExtensionality.
From Verif Require Import LaBase IntegModel EqpSpec IntegSpec IntegProofs IntegDomProofs IntegDom2Proofs IntegFaceProofs IntegLaxProofs IntegLax2Proofs IntegQuadProofs IntegMoreProofs IntegExamples.
Import ListNotations.
Local Open Scope R_scope.

(** ** Jacobians *)

(** Convection form without a given wind; example [ex_geometry], [ex_conv] *)
Theorem C55_convection : forall nd dim rule x, (forall p, In p rule -> geometry dim p /\ q_vQ p = None) ->
  is_jacobian (nd * dim) (conv_vector nd dim rule) (conv_grad nd dim rule x) x /\
  expands (nd * dim) (conv_vector nd dim rule) (conv_grad nd dim rule x) x.
Proof. intros. split; [apply conv_jacobian|apply conv_expands]; auto. Qed.
Print Assumptions C55_convection.

Theorem C55_convection_point : forall nd dim p iw x, geometry dim p -> q_vQ p = None ->
  is_jacobian (nd * dim) (conv_qvector nd dim p iw) (conv_qgrad nd dim p iw x) x.
Proof. intros. apply conv_qjacobian; auto. Qed.
Print Assumptions C55_convection_point.

(** With a given wind the assembled matrix is not the derivative. *)
Theorem C55_wind_refuted : exists nd dim rule x, (forall p, In p rule -> geometry dim p) /\
  ~ is_jacobian (nd * dim) (conv_vector nd dim rule) (conv_grad nd dim rule x) x.
Proof.
  exists 1%nat, 1%nat, [Qpt 1 (fun _ => 1) (fun _ _ => 1) (fun _ _ => 1) (fun _ _ => 1) 1 None (Some (fun _ => 0))], (fun _ => 1).
  split; [intros p [<-|[]] t e _ _; cbn; ring|]. intros H. destruct ex_wind as (EJ & EV). specialize (H (fun _ => 1) 0%nat ltac:(lia)).
  cbn [rsum Nat.mul Nat.add] in H. cbv beta in H. rewrite EJ in H.
  assert (D : derivable_pt_lim (fun _ => 0) 0 0) by apply derivable_pt_lim_const.
  assert (D' : derivable_pt_lim (fun _ : R => 0) 0 (0 + 2 * 1)).
  { eapply derivative_ext; [|exact H]. intros t. apply EV. }
  pose proof (uniqueness_limite _ _ _ _ D D'). lra.
Qed.
Print Assumptions C55_wind_refuted.

Theorem C55_inviscid : forall nd dim rule x,
  is_jacobian (nd * dim) (visc_vector nd dim rule) (visc_grad nd dim rule x) x /\
  expands (nd * dim) (visc_vector nd dim rule) (visc_grad nd dim rule x) x.
Proof. intros. split; [apply visc_jacobian|apply visc_expands]. Qed.
Print Assumptions C55_inviscid.

Theorem C55_inviscid_point : forall nd dim p iw x, is_jacobian (nd * dim) (visc_qvector nd dim p iw) (visc_qgrad nd dim p iw x) x.
Proof. intros. apply visc_qjacobian. Qed.
Print Assumptions C55_inviscid_point.

Theorem C55_temam : forall nd dim rule x,
  is_jacobian (nd * dim) (temam_vector nd dim rule) (temam_grad nd dim rule x) x /\
  expands (nd * dim) (temam_vector nd dim rule) (temam_grad nd dim rule x) x.
Proof. intros. split; [apply temam_jacobian|apply temam_expands]. Qed.
Print Assumptions C55_temam.

(** Faces inside a domain and on its boundary ([nd2 = 0]) *)
Theorem C55_temam_face : forall nd1 nd2 dim rule x,
  is_jacobian (nd1 * dim + nd2 * dim) (temam_face_vector nd1 nd2 dim rule) (temam_face_grad nd1 nd2 dim rule x) x /\
  expands (nd1 * dim + nd2 * dim) (temam_face_vector nd1 nd2 dim rule) (temam_face_grad nd1 nd2 dim rule x) x.
Proof. intros. split; [apply temam_face_jacobian|apply temam_face_expands]. Qed.
Print Assumptions C55_temam_face.

(** Interfaces; example [ex_temam_face] *)
Theorem C55_temam_interface : forall nd1 nd2 dim rule x1 x2, nd2 <> 0%nat ->
  is_jacobian2 (nd1 * dim) (nd2 * dim) (temam_itf_vector nd1 nd2 dim rule) (temam_itf_grad nd1 nd2 dim rule x1 x2) x1 x2 /\
  expands2 (nd1 * dim) (nd2 * dim) (temam_itf_vector nd1 nd2 dim rule) (temam_itf_grad nd1 nd2 dim rule x1 x2) x1 x2.
Proof. intros. split; [apply temam_itf_jacobian|apply temam_itf_expands]; auto. Qed.
Print Assumptions C55_temam_interface.

(** Lax-Friedrichs flux: wherever the two speeds differ, or the velocities agree and do not vanish; examples [ex_smooth],
    [ex_smooth_bdr], [ex_smooth_itf] *)
Theorem C55_lax_friedrichs_face : forall nd1 nd2 dim ud rule x old, smooth_face nd1 nd2 dim ud rule x ->
  exists J, lf_face_grad nd1 nd2 dim ud rule x old = Some J /\
    is_jacobian (nd1 * dim + nd2 * dim) (fun y => lf_face_vector nd1 nd2 dim ud rule y old) J x.
Proof. intros. apply (lf_face_jacobian nd1 nd2 dim ud f_w rule x old). apply smooth_face_ok; auto. Qed.
Print Assumptions C55_lax_friedrichs_face.

Theorem C55_lax_friedrichs_point : forall nd1 nd2 dim ud p iw x old, smooth_face nd1 nd2 dim ud [p] x ->
  exists J, lf_face_qgrad nd1 nd2 dim ud p iw x old = Some J /\
    is_jacobian (nd1 * dim + nd2 * dim) (fun y => lf_face_qvector nd1 nd2 dim ud p iw y old) J x.
Proof. intros. apply (lf_face_jacobian nd1 nd2 dim ud (fun _ => iw) [p] x old). apply smooth_face_ok; auto. Qed.
Print Assumptions C55_lax_friedrichs_point.

Theorem C55_lax_friedrichs_interface : forall nd1 nd2 dim ud rule x1 x2 old, nd2 <> 0%nat -> smooth_itf nd1 nd2 dim rule x1 x2 ->
  exists J, lf_itf_grad nd1 nd2 dim ud rule x1 x2 old = Some J /\
    is_jacobian2 (nd1 * dim) (nd2 * dim) (fun y1 y2 => lf_itf_vector nd1 nd2 dim ud rule y1 y2 old) J x1 x2.
Proof. intros. apply (lf_itf_jacobian nd1 nd2 dim ud f_w rule x1 x2 old). apply smooth_itf_ok; auto. Qed.
Print Assumptions C55_lax_friedrichs_interface.

Theorem C55_lax_friedrichs_interface_point : forall nd1 nd2 dim ud p iw x1 x2 old, nd2 <> 0%nat -> smooth_itf nd1 nd2 dim [p] x1 x2 ->
  exists J, lf_itf_qgrad nd1 nd2 dim ud p iw x1 x2 old = Some J /\
    is_jacobian2 (nd1 * dim) (nd2 * dim) (fun y1 y2 => lf_itf_qvector nd1 nd2 dim ud p iw y1 y2 old) J x1 x2.
Proof. intros. apply (lf_itf_jacobian nd1 nd2 dim ud (fun _ => iw) [p] x1 x2 old). apply smooth_itf_ok; auto. Qed.
Print Assumptions C55_lax_friedrichs_interface_point.

(** At rest the derivative is zero, but what is assembled is not a number. *)
Theorem C55_at_rest_refuted : forall nd1 nd2 dim ud rule old, nd2 <> 0%nat -> rule <> [] ->
  is_jacobian2 (nd1 * dim) (nd2 * dim) (fun y1 y2 => lf_itf_vector nd1 nd2 dim ud rule y1 y2 old) zero_ms (fun _ => 0) (fun _ => 0) /\
  lf_itf_grad nd1 nd2 dim ud rule (fun _ => 0) (fun _ => 0) old = None.
Proof. intros. split; [apply (lf_zero_jacobian nd1 nd2 dim ud rule old f_w)|apply (lf_none nd1 nd2 dim ud rule old f_w)]; auto. Qed.
Print Assumptions C55_at_rest_refuted.

(** ** Weak forms *)

Theorem C87_weak_forms : forall nd dim rule u v,
  tested (nd * dim) v (conv_vector nd dim rule u) = integral (convection_at nd dim u v) rule /\
  tested (nd * dim) v (visc_vector nd dim rule u) = integral (inviscid_at nd dim u v) rule /\
  tested (nd * dim) v (temam_vector nd dim rule u) = integral (temam_at nd dim u v) rule.
Proof. intros. split; [apply conv_weak|]. split; [apply visc_weak|apply temam_weak]. Qed.
Print Assumptions C87_weak_forms.

(** ** Energy of the Temam form *)

Theorem C88_element : forall nd dim rule u, tested (nd * dim) u (temam_vector nd dim rule u) = 0.
Proof. intros. apply temam_energy. Qed.
Print Assumptions C88_element.

Theorem C88_face : forall nd1 nd2 dim rule u, nd2 <> 0%nat -> tested (nd1 * dim + nd2 * dim) u (temam_face_vector nd1 nd2 dim rule u) = 0.
Proof. intros. apply temam_face_energy; auto. Qed.
Print Assumptions C88_face.

Theorem C88_interface : forall nd1 nd2 dim rule u1 u2, nd2 <> 0%nat ->
  tested (nd1 * dim) u1 (fst (temam_itf_vector nd1 nd2 dim rule u1 u2)) + tested (nd2 * dim) u2 (snd (temam_itf_vector nd1 nd2 dim rule u1 u2)) = 0.
Proof. intros. apply temam_itf_energy; auto. Qed.
Print Assumptions C88_interface.

(** On the boundary: the kinetic energy carried out *)
Theorem C88_boundary : forall nd dim rule u, tested (nd * dim) u (temam_face_vector nd 0 dim rule u) =
  lsum (fun p => f_w p * coef (f_Q p) * (1 / 2 * vdot dim (f_nor p) (field 0 nd (f_s1 p) u) * vdot dim (field 0 nd (f_s1 p) u) (field 0 nd (f_s1 p) u))) rule.
Proof. intros. apply temam_boundary_energy. Qed.
Print Assumptions C88_boundary.

(** ** Lax-Friedrichs flux *)

Theorem C89_interface : forall nd1 nd2 dim ud rule v1 v2 u1 u2 old, nd2 <> 0%nat ->
  tested (nd1 * dim) v1 (fst (lf_itf_vector nd1 nd2 dim ud rule u1 u2 old)) + tested (nd2 * dim) v2 (snd (lf_itf_vector nd1 nd2 dim ud rule u1 u2 old)) =
  lsum (fun p => - (f_w p * coef (f_Q p) * rsum dim (fun d => (field 0 nd1 (f_s1 p) v1 d - field 0 nd2 (f_s2 p) v2 d) *
    lax dim (f_nor p) (field 0 nd1 (f_s1 p) u1) (field 0 nd2 (f_s2 p) u2) d))) rule.
Proof. intros. apply (lf_itf_weak nd1 nd2 dim ud f_w); auto. Qed.
Print Assumptions C89_interface.

Theorem C89_face : forall nd1 nd2 dim ud rule v u old, nd2 <> 0%nat ->
  tested (nd1 * dim + nd2 * dim) v (lf_face_vector nd1 nd2 dim ud rule u old) =
  lsum (fun p => - (f_w p * coef (f_Q p) * rsum dim (fun d => (field 0 nd1 (f_s1 p) v d - field (nd1 * dim) nd2 (f_s2 p) v d) *
    lax dim (f_nor p) (field 0 nd1 (f_s1 p) u) (field (nd1 * dim) nd2 (f_s2 p) u) d))) rule.
Proof. intros. apply (lf_face_weak nd1 nd2 dim ud f_w); auto. Qed.
Print Assumptions C89_face.

(** Boundary with a given velocity, and without one (outflow) *)
Theorem C89_boundary : forall nd dim ud rule v u old,
  tested (nd * dim) v (lf_face_vector nd 0 dim ud rule u old) =
  lsum (fun p => - (f_w p * coef (f_Q p) * rsum dim (fun d => field 0 nd (f_s1 p) v d *
    (if ud then lax dim (f_nor p) (field 0 nd (f_s1 p) u) (f_UD p) d
     else vdot dim (f_nor p) (field 0 nd (f_s1 p) u) * field 0 nd (f_s1 p) u d)))) rule.
Proof. intros. apply (lf_bdr_weak nd dim ud f_w). Qed.
Print Assumptions C89_boundary.

(** The flux is the same seen from the other side, and is the physical flux between equal velocities; example [ex_lax]. *)
Theorem C89_flux : forall dim n u1 u2 d,
  lax dim (fun e => - n e) u2 u1 d = - lax dim n u1 u2 d /\ lax dim n u1 u1 d = vdot dim n u1 * u1 d.
Proof. intros. split; [apply lax_conservative|apply lax_consistent]. Qed.
Print Assumptions C89_flux.

(** Exchanging the two sides of an interface exchanges the two vectors. *)
Theorem C89_sides : forall nd1 nd2 dim ud rule u1 u2 old, nd1 <> 0%nat -> nd2 <> 0%nat ->
  let swap p := Fpt (f_w p) (f_s2 p) (f_s1 p) (fun e => - f_nor p e) (f_Q p) (f_UD p) in
  (forall i, (i < nd1 * dim)%nat -> snd (lf_itf_vector nd2 nd1 dim ud (map swap rule) u2 u1 old) i = fst (lf_itf_vector nd1 nd2 dim ud rule u1 u2 old) i) /\
  (forall i, (i < nd2 * dim)%nat -> fst (lf_itf_vector nd2 nd1 dim ud (map swap rule) u2 u1 old) i = snd (lf_itf_vector nd1 nd2 dim ud rule u1 u2 old) i).
Proof. intros. apply lf_swap; auto. Qed.
Print Assumptions C89_sides.

(** ** Quadrature points *)

Theorem C90_elements : forall nd dim rule x i, (i < nd * dim)%nat ->
  conv_vector nd dim rule x i = lsum (fun p => conv_qvector nd dim p (q_w p) x i) rule /\
  visc_vector nd dim rule x i = lsum (fun p => visc_qvector nd dim p (q_w p) x i) rule /\
  (forall j, (j < nd * dim)%nat ->
    ((forall p, In p rule -> geometry dim p) -> conv_grad nd dim rule x i j = lsum (fun p => conv_qgrad nd dim p (q_w p) x i j) rule) /\
    visc_grad nd dim rule x i j = lsum (fun p => visc_qgrad nd dim p (q_w p) x i j) rule).
Proof.
  intros. split; [apply conv_rule; auto|]. split; [apply visc_rule; auto|]. intros j Hj. split; [intros; apply conv_rule_grad; auto|apply visc_rule_grad; auto].
Qed.
Print Assumptions C90_elements.

Theorem C90_faces : forall nd1 nd2 dim ud rule x old,
  (forall i, (i < nd1 * dim + nd2 * dim)%nat ->
    lf_face_vector nd1 nd2 dim ud rule x old i = lsum (fun p => lf_face_qvector nd1 nd2 dim ud p (f_w p) x old i) rule) /\
  (forall J i j, lf_face_grad nd1 nd2 dim ud rule x old = Some J -> (i < nd1 * dim + nd2 * dim)%nat -> (j < nd1 * dim + nd2 * dim)%nat ->
    exists Js, (forall p, In p rule -> lf_face_qgrad nd1 nd2 dim ud p (f_w p) x old = Some (Js p)) /\ J i j = lsum (fun p => Js p i j) rule).
Proof. intros. split; [intros; apply lf_face_rule; auto|intros; apply (lf_face_rule_grad _ _ _ _ _ _ _ _ H); auto]. Qed.
Print Assumptions C90_faces.

Theorem C90_interfaces : forall nd1 nd2 dim ud rule x1 x2 old,
  (forall i, (i < nd1 * dim)%nat -> fst (lf_itf_vector nd1 nd2 dim ud rule x1 x2 old) i = lsum (fun p => fst (lf_itf_qvector nd1 nd2 dim ud p (f_w p) x1 x2 old) i) rule) /\
  (forall i, (i < nd2 * dim)%nat -> snd (lf_itf_vector nd1 nd2 dim ud rule x1 x2 old) i = lsum (fun p => snd (lf_itf_qvector nd1 nd2 dim ud p (f_w p) x1 x2 old) i) rule).
Proof. intros. apply lf_itf_rule. Qed.
Print Assumptions C90_interfaces.
