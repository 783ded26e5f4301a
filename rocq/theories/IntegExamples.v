(** Concrete cases for the nonlinear integrators. *)
From Coq Require Import Reals List Bool Lia Arith Lra FunctionalExtensionality.
From Verif Require Import LaBase IntegModel EqpSpec IntegSpec IntegProofs IntegDomProofs IntegDom2Proofs IntegFaceProofs IntegLaxProofs IntegLax2Proofs IntegQuadProofs IntegMoreProofs.
Import ListNotations.
Local Open Scope R_scope.

(** A point of a plane element with two shape functions, stretched by two in both directions *)
Definition pt0 (vq : option fv) : qpt :=
  Qpt 1 (fun _ => 1 / 2) (fun k _ => if (k =? 0)%nat then -1 else 1) (fun i j => if (i =? j)%nat then 1 / 2 else 0)
      (fun i j => if (i =? j)%nat then 2 else 0) 4 (Some 3) vq.
Definition st0 : fv := fun i => nth i [1; 2; 3; 5] 0.

Example ex_geometry : geometry 2 (pt0 None).
Proof. intros t e _ _. cbn. destruct (t =? e)%nat; lra. Qed.

(** u = (3/2, 4), grad u = ((1/2, 1/2), (1, 1)): the convection vector and its energy are not zero *)
Example ex_conv : conv_vector 2 2 [pt0 None] st0 0%nat = 33 / 2 /\ tested 4 st0 (conv_vector 2 2 [pt0 None] st0) <> 0.
Proof.
  assert (V : forall k d, (k < 2)%nat -> conv_vector 2 2 [pt0 None] st0 (k + d * 2)%nat = conv_term 2 2 (pt0 None) 1 st0 k d).
  { intros k d Hk. rewrite conv_vector_at by auto. rewrite lsum_cons. apply Rplus_0_r. }
  assert (E : forall k d, (k < 2)%nat -> (d < 2)%nat -> conv_term 2 2 (pt0 None) 1 st0 k d = if (d =? 0)%nat then 33 / 2 else 33).
  { intros k d Hk Hd. unfold conv_term, wind, deriv, field, dphys, coef. destruct d as [|[|d]]; [| |lia]; cbn; lra. }
  pose proof (V 0 0 ltac:(lia))%nat as V0. pose proof (V 1 0 ltac:(lia))%nat as V1. pose proof (V 0 1 ltac:(lia))%nat as V2. pose proof (V 1 1 ltac:(lia))%nat as V3.
  rewrite !E in V0, V1, V2, V3 by lia. cbn [Nat.add Nat.mul Nat.eqb] in V0, V1, V2, V3. split; [exact V0|]. unfold tested. cbn [rsum].
  rewrite V0, V1, V2, V3. cbn. lra.
Qed.

(** With a given wind the vector is linear, with a Jacobian that is not the assembled matrix *)
Example ex_wind : conv_grad 1 1 [Qpt 1 (fun _ => 1) (fun _ _ => 1) (fun _ _ => 1) (fun _ _ => 1) 1 None (Some (fun _ => 0))] (fun _ => 1) 0%nat 0%nat = 2 /\
  forall y i, conv_vector 1 1 [Qpt 1 (fun _ => 1) (fun _ _ => 1) (fun _ _ => 1) (fun _ _ => 1) 1 None (Some (fun _ => 0))] y i = 0.
Proof. split.
  { set (p := Qpt 1 _ _ _ _ _ _ _). pose proof (conv_grad_at 1 1 [p] (fun _ => 1) 0 0 0 0) as E. cbn [Nat.add Nat.mul] in E. rewrite E; try lia.
    - rewrite lsum_cons. unfold lsum, conv_gterm, field, deriv, dphys, coef, p. cbn. ring.
    - intros q [<-|[]] t e _ _. unfold p. cbn. ring. }
  intros y i. unfold conv_vector, unview. cbn. unfold add_vwt, conv_flux, scale, mult, zero_m. cbn. ring. Qed.

(** A face point between two one-dimensional elements with velocities of different size *)
Definition fp0 : fpt := Fpt 1 (fun _ => 1) (fun _ => 1) (fun _ => 1) (Some 2) (fun _ => 3).
Lemma speed1 a : 0 <= a -> speed 1 (fun _ => a) = a.
Proof. intros H. unfold speed, vdot. cbn. rewrite Rplus_0_l. apply sqrt_square. auto. Qed.
Example ex_smooth : smooth_face 1 1 1 false [fp0] (fun i => if (i =? 0)%nat then 2 else 1).
Proof.
  intros p [<-|[]]. cbn [Nat.eqb]. left. 
  replace (field 0 1 (f_s1 fp0) (fun i => if (i =? 0)%nat then 2 else 1)) with (fun d : nat => if (d =? 0)%nat then 2 else 1).
  2: { apply functional_extensionality. intros [|d]; cbn; ring. }
  replace (field (1 * 1) 1 (f_s2 fp0) (fun i => if (i =? 0)%nat then 2 else 1)) with (fun d : nat => 1).
  2: { apply functional_extensionality. intros d; cbn; ring. }
  rewrite speed1 by lra. unfold speed, vdot. cbn. rewrite Rplus_0_l, sqrt_square by lra. lra.
Qed.
Example ex_smooth_bdr : smooth_face 1 0 1 true [fp0] (fun _ => 1).
Proof.
  intros p [<-|[]]. cbn [Nat.eqb]. left.
  replace (field 0 1 (f_s1 fp0) (fun _ => 1)) with (fun d : nat => 1) by (apply functional_extensionality; intros d; cbn; ring).
  cbn [f_UD fp0]. rewrite !speed1 by lra. lra.
Qed.
Example ex_smooth_itf : smooth_itf 1 1 1 [fp0] (fun _ => 2) (fun _ => 1).
Proof.
  intros p [<-|[]]. left.
  replace (field 0 1 (f_s1 fp0) (fun _ => 2)) with (fun d : nat => 2) by (apply functional_extensionality; intros d; cbn; ring).
  replace (field 0 1 (f_s2 fp0) (fun _ => 1)) with (fun d : nat => 1) by (apply functional_extensionality; intros d; cbn; ring).
  rewrite !speed1 by lra. lra.
Qed.
(** The flux between velocities 2 and 1: mean 5/2, dissipation 2 *)
Example ex_lax : lax 1 (fun _ => 1) (fun _ => 2) (fun _ => 1) 0%nat = 9 / 2.
Proof. unfold lax. rewrite !speed1 by lra. rewrite Rmax_left by lra. unfold vdot. cbn. lra. Qed.
(** Without symmetrization the interface term does work *)
Example ex_temam_face : temam_itf_vector 1 1 1 [fp0] (fun _ => 2) (fun _ => 1) = ((fun _ => -2), (fun _ => 4)).
Proof.
  unfold temam_itf_vector. cbn. f_equal; apply functional_extensionality; intros i; unfold unview, add_vwt, zero_m, scale, inner, mult_t, view, temam_nor, with_q, scale; cbn; lra.
Qed.
