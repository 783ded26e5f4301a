(** Properties of precomputed coefficients. *)
From Coq Require Import Reals List Bool Arith ZArith.
From Verif Require Import Outcome HdfModel LaBase BlockVec LinalgModel LinalgSpec EqpModel EqpSpec EqpItfModel IntegModel IntegSpec IntegExamples
  IntegFastModel IntegFormSpec IntegFastItfModel IntegFastProofs IntegFormProofs IntegFastItfProofs IntegFastExamples.
Import ListNotations.
Local Open Scope R_scope.

(** Evaluating a form from precomputed coefficients gives the same vector as lifting, evaluating on the samples and projecting *)
Theorem C54_mult n dim B ints x y old old' : dm_wf B -> dm_w B = n -> (0 < n)%nat -> List.length x = n -> List.length y = n ->
  (forall I, In I ints -> fint_fits (dm_h B) dim I) ->
  exists pres z, precompute_form dim n (Some B) ints = Ok pres /\ fast_mult n dim (Some B) ints pres old' x y = Ok z /\
    form_mult n (Some B) (map (to_integ dim old) ints) x y = Ok z.
Proof. apply fast_mult_ok. Qed.
Print Assumptions C54_mult.

(** ... and the same matrix, when the flux has a derivative, and its integrator was last used on a face with two sides or there
    are no such faces *)
Theorem C54_gradient n dim B ints x memb old old' G : dm_wf B -> dm_w B = n -> (0 < n)%nat -> List.length x = n ->
  (forall M, G = Some M -> dm_wf M /\ dm_h M = n /\ dm_w M = n) ->
  (forall I, In I ints -> fint_fits (dm_h B) dim I /\ fint_smooth dim I (lift B 0 x) /\ (memb = true \/ one_sided I)) ->
  exists pres J J', precompute_form dim n (Some B) ints = Ok pres /\ fast_gradient n dim memb ints pres old' x = Ok (Some J) /\
    form_gradient n (Some B) (map (to_integ dim old) ints) G x = Ok J' /\
    dm_h J = n /\ dm_w J = n /\ dm_h J' = n /\ dm_w J' = n /\ forall i j, (i < n)%nat -> (j < n)%nat -> mget J i j = mget J' i j.
Proof. apply fast_gradient_ok. Qed.
Print Assumptions C54_gradient.

(** On the samples of a port, when the variable starts at the first row of the bases *)
Theorem C54_interface B1 B2 dim m1 m2 nq ud old st x1 x2 n size l y :
  dm_wf B1 -> dm_wf B2 -> (0 < dm_w B1)%nat -> (0 < dm_w B2)%nat -> List.length x1 = dm_w B1 -> List.length x2 = dm_w B2 ->
  (m1 < n)%nat -> (m2 < n)%nat -> size m1 = dm_w B1 -> size m2 = dm_w B2 -> bv_wf y n size ->
  (forall s, In s l -> ifast_fits dim (dm_h B1) (dm_h B2) nq st s) ->
  exists ps y', port_pre B1 B2 nq st l = Ok ps /\ port_fast dim (dm_w B1) (dm_w B2) m1 m2 nq st x1 x2 l ps y = Ok y' /\
    port_mult B1 B2 0 0 m1 m2 nq (map (option_map (isite_at dim ud old)) st) x1 x2 l y = Ok y'.
Proof.
  intros W1 W2 P1 P2 L1 L2 H1 H2 S1 S2 Wy Hf.
  apply (port_fast_ok B1 B2 dim m1 m2 nq (dm_h B1) (dm_h B2) ud old st x1 x2 n size); auto.
Qed.
Print Assumptions C54_interface.

(** The Jacobian at a point of an interface *)
Theorem C54_interface_gradient nb1 nb2 nd1 nd2 dim ud p w bel1 bel2 x1 x2 jac old : nd2 <> 0%nat ->
  smooth_itf nd1 nd2 dim [p] (comb nb1 bel1 x1) (comb nb2 bel2 x2) ->
  exists G J, lf_itf_qgrad nd1 nd2 dim ud p w (comb nb1 bel1 x1) (comb nb2 bel2 x2) old = Some G /\
    lf_fast_itf_grad nb1 nb2 dim p w (pre_itf nd1 nd2 p bel1 bel2) x1 x2 jac = Some J /\
    (forall i j, (j < nb1)%nat -> m11 J i j = m11 jac i j + rap (nd1 * dim) (nd1 * dim) bel1 (m11 G) bel1 i j) /\
    (forall i j, (j < nb2)%nat -> m12 J i j = m12 jac i j + rap (nd1 * dim) (nd2 * dim) bel1 (m12 G) bel2 i j) /\
    (forall i j, (j < nb1)%nat -> m21 J i j = m21 jac i j + rap (nd2 * dim) (nd1 * dim) bel2 (m21 G) bel1 i j) /\
    (forall i j, (j < nb2)%nat -> m22 J i j = m22 jac i j + rap (nd2 * dim) (nd2 * dim) bel2 (m22 G) bel2 i j).
Proof. apply lf_fast_itf_grad_ok. Qed.
Print Assumptions C54_interface_gradient.

(** A given wind is ignored *)
Theorem C54_wind_refuted : exists p, geometry 1 p /\ q_vQ p <> None /\
  conv_fast 1 1 p 1 (pre_elem 1 1 p (fun _ _ => 1)) (fun _ => 1) (fun _ => 0) 0%nat <>
  0 + tested 1 (colf (fun _ _ => 1) 0) (conv_qvector 1 1 p 1 (comb 1 (fun _ _ => 1) (fun _ => 1))).
Proof. exact wind_differs. Qed.
Print Assumptions C54_wind_refuted.

(** The Jacobian of the flux on a face with two sides, after the integrator was used on a boundary face *)
Theorem C54_stale_refuted : exists nb nd1 nd2 p bel x G J, nd2 <> 0%nat /\ smooth_face nd1 nd2 1 false [p] (comb nb bel x) /\
  lf_face_qgrad nd1 nd2 1 false p 1 (comb nb bel x) (fun _ => 0) = Some G /\
  lf_fast_grad nb 1 true false false p 1 (pre_face nd1 nd2 1 p bel) x (fun _ => 0) zero_m = Some J /\
  exists i j, (i < nb)%nat /\ (j < nb)%nat /\ J i j <> rap (nd1 * 1 + nd2 * 1) (nd1 * 1 + nd2 * 1) bel G bel i j.
Proof.
  destruct stale_differs as (G & J & S & EG & EJ & N). exists 2%nat, 1%nat, 1%nat, fp0, (fun i j => if (i =? j)%nat then 1 else 0), (fun i => if (i =? 0)%nat then 2 else 1), G, J.
  split; [discriminate|]. split; [exact S|]. split; [exact EG|]. split; [exact EJ|]. exists 0%nat, 1%nat. split; [apply Nat.lt_0_succ|]. split; [apply Nat.lt_succ_diag_r|exact N].
Qed.
Print Assumptions C54_stale_refuted.

(** Bases where the variable starts after the first row *)
Theorem C54_offset_refuted : exists B1 B2 o1 st x1 x2 l y n size, bv_wf y n size /\
  (forall s, In s l -> ifast_fits 1 (dm_h B1 - o1) (dm_h B2) 1 st s) /\ (0 < o1 < dm_h B1)%nat /\
  exists ps z z', port_pre B1 B2 1 st l = Ok ps /\
  port_fast 1 (dm_w B1) (dm_w B2) 0 1 1 st x1 x2 l ps y = Ok z /\
  port_mult B1 B2 o1 0 0 1 1 (map (option_map (isite_at 1 false (fun _ => 0))) st) x1 x2 l y = Ok z' /\ z <> z'.
Proof.
  exists oB1, oB2, 1%nat, [Some oPl], [1], [1], oSmp, oY, 2%nat, (fun _ => 1%nat). split; [apply oY_wf|]. split; [apply o_fits|]. split; [split; [apply Nat.lt_0_succ|apply Nat.lt_succ_diag_r]|].
  exact offset_differs.
Qed.
Print Assumptions C54_offset_refuted.
