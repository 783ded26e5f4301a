(** The domain integrators: values, exactness of the Jacobians, weak forms. *)
From Coq Require Import Reals List Bool Lia Arith Lra.
From Verif Require Import LaBase EqpSpec IntegModel IntegSpec IntegProofs.
Import ListNotations.
Local Open Scope R_scope.

Lemma with_q_coef q w : with_q q w = w * coef q.
Proof. destruct q; cbn; ring. Qed.

Lemma view_field o nd x s d : mult_t nd (view o nd x) s d = field o nd s x d.
Proof. unfold mult_t, field. apply rsum_ext. intros k _. unfold view. ring. Qed.

Lemma view_deriv nd x g d e : mult_atb nd (view 0 nd x) g d e = deriv nd g x d e.
Proof. unfold mult_atb, deriv. apply rsum_ext. intros k _. unfold view. rewrite Rmult_comm. f_equal. Qed.

Lemma phys_dphys dim p m e : phys dim p m e = dphys dim p m e.
Proof. reflexivity. Qed.

Lemma deriv_phys nd dim p x d e : deriv nd (phys dim p) x d e = deriv nd (dphys dim p) x d e.
Proof. reflexivity. Qed.

Lemma field_lin o nd s x h t d : field o nd s (fun k => x k + t * h k) d = field o nd s x d + t * field o nd s h d.
Proof. unfold field. rewrite <- rsum_scal, <- rsum_plus. apply rsum_ext. intros. ring. Qed.

Lemma deriv_lin nd g x h t d e : deriv nd g (fun k => x k + t * h k) d e = deriv nd g x d e + t * deriv nd g h d e.
Proof. unfold deriv. rewrite <- rsum_scal, <- rsum_plus. apply rsum_ext. intros. ring. Qed.

(** From the contribution of each point to the Jacobian of the sum *)
Lemma jacobian_points {P} nd dim (rule : list P) (F : fv -> fv) (J : fm) x (f : P -> fv -> nat -> nat -> R) (g : P -> nat -> nat -> nat -> nat -> R) :
  (forall y k d, (k < nd)%nat -> (d < dim)%nat -> F y (k + d * nd)%nat = lsum (fun p => f p y k d) rule) ->
  (forall k d m e, (k < nd)%nat -> (d < dim)%nat -> (m < nd)%nat -> (e < dim)%nat ->
     J (k + d * nd)%nat (m + e * nd)%nat = lsum (fun p => g p k d m e) rule) ->
  (forall p h k d, In p rule -> (k < nd)%nat -> (d < dim)%nat ->
     derivable_pt_lim (fun t => f p (fun i => x i + t * h i) k d) 0
       (rsum dim (fun e => rsum nd (fun m => g p k d m e * h (m + e * nd)%nat)))) ->
  is_jacobian (nd * dim) F J x.
Proof.
  intros HF HJ HD h i Hi. destruct (grid_index nd dim i Hi) as (k & d & Hk & Hd & ->).
  apply (derivative_ext (fun t => lsum (fun p => f p (fun i => x i + t * h i) k d) rule)).
  - intros t. rewrite HF by auto. reflexivity.
  - rewrite rsum_grid.
    replace (rsum dim (fun e => rsum nd (fun m => J (k + d * nd)%nat (m + e * nd)%nat * h (m + e * nd)%nat)))
      with (lsum (fun p => rsum dim (fun e => rsum nd (fun m => g p k d m e * h (m + e * nd)%nat))) rule).
    + apply derivative_lsum. intros p Hp. apply HD; auto.
    + rewrite lsum_rsum. apply rsum_ext. intros e He. rewrite lsum_rsum. apply rsum_ext. intros m Hm.
      rewrite HJ by auto. rewrite Rmult_comm, <- lsum_mul. apply lsum_ext_in. intros. ring.
Qed.

(** ** Convection *)
Definition wind (nd : nat) (p : qpt) (x : fv) (e : nat) : R :=
  match q_vQ p with Some a => a e | None => field 0 nd (q_shape p) x e end.

Lemma conv_flux_at nd dim p iw x d :
  conv_flux nd dim p iw (view 0 nd x) d = iw * q_J p * coef (q_Q p) * rsum dim (fun e => deriv nd (dphys dim p) x d e * wind nd p x e).
Proof.
  unfold conv_flux. cbn zeta. unfold scale. rewrite with_q_coef. unfold mult. f_equal. apply rsum_ext. intros e _.
  rewrite view_deriv, deriv_phys. unfold wind. destruct (q_vQ p); [reflexivity|]. rewrite view_field. reflexivity.
Qed.

Definition conv_term (nd dim : nat) (p : qpt) (iw : R) (x : fv) (k d : nat) : R :=
  q_shape p k * (iw * q_J p * coef (q_Q p) * rsum dim (fun e => deriv nd (dphys dim p) x d e * wind nd p x e)).

Lemma conv_vector_at nd dim rule x k d : (k < nd)%nat ->
  conv_vector nd dim rule x (k + d * nd)%nat = lsum (fun p => conv_term nd dim p (q_w p) x k d) rule.
Proof.
  intros Hk. unfold conv_vector. rewrite unview_at by auto.
  rewrite (fold_add _ (fun p => conv_term nd dim p (q_w p) x k d) (fun M => M k d)).
  - unfold zero_m. ring.
  - intros M p _. unfold add_vwt. rewrite conv_flux_at. unfold conv_term. ring.
Qed.

Lemma conv_qvector_at nd dim p iw x k d : (k < nd)%nat ->
  conv_qvector nd dim p iw x (k + d * nd)%nat = conv_term nd dim p iw x k d.
Proof. intros Hk. unfold conv_qvector. rewrite unview_at by auto. unfold vwt. rewrite conv_flux_at. reflexivity. Qed.

Definition conv_gterm (nd dim : nat) (p : qpt) (iw : R) (x : fv) (k d m e : nat) : R :=
  iw * q_J p * coef (q_Q p) * q_shape p k *
  ((if (d =? e)%nat then rsum dim (fun e' => dphys dim p m e' * field 0 nd (q_shape p) x e') else 0) + deriv nd (dphys dim p) x d e * q_shape p m).

Lemma conv_gpoint_at nd dim p iw x M k d m e : geometry dim p -> (k < nd)%nat -> (d < dim)%nat -> (m < nd)%nat -> (e < dim)%nat ->
  conv_gpoint nd dim p iw (view 0 nd x) M (k + d * nd)%nat (m + e * nd)%nat =
  M (k + d * nd)%nat (m + e * nd)%nat + conv_gterm nd dim p iw x k d m e.
Proof.
  intros G Hk Hd Hm He. unfold conv_gpoint. cbn zeta.
  rewrite full_loop by auto. rewrite diag_loop by auto. rewrite !with_q_coef.
  change (mult_ab dim (q_dref p) (q_inv p)) with (phys dim p). rewrite view_deriv, deriv_phys.
  unfold conv_gterm, vwt. rewrite Rplus_assoc. f_equal.
  assert (V : mult dim (q_dref p) (scale (iw * coef (q_Q p)) (mult dim (q_adj p) (mult_t nd (view 0 nd x) (q_shape p)))) m =
              iw * q_J p * coef (q_Q p) * rsum dim (fun e' => dphys dim p m e' * field 0 nd (q_shape p) x e')).
  { unfold mult at 1, scale, mult. 
    transitivity (rsum dim (fun t => rsum dim (fun e' => iw * q_J p * coef (q_Q p) * (q_dref p m t * q_inv p t e' * field 0 nd (q_shape p) x e')))).
    - apply rsum_ext. intros t Ht. rewrite <- !rsum_scal. apply rsum_ext. intros e' He'. rewrite (G t e') by auto. rewrite view_field. ring.
    - rewrite rsum_swap, <- rsum_scal. apply rsum_ext. intros e' He'. unfold dphys. rewrite rsum_scal, <- rsum_scal_r. reflexivity. }
  rewrite V. destruct (d =? e)%nat; ring.
Qed.

Lemma conv_grad_at nd dim rule x k d m e : (forall p, In p rule -> geometry dim p) -> (k < nd)%nat -> (d < dim)%nat -> (m < nd)%nat -> (e < dim)%nat ->
  conv_grad nd dim rule x (k + d * nd)%nat (m + e * nd)%nat = lsum (fun p => conv_gterm nd dim p (q_w p) x k d m e) rule.
Proof.
  intros G Hk Hd Hm He. unfold conv_grad.
  rewrite (fold_add _ (fun p => conv_gterm nd dim p (q_w p) x k d m e) (fun M => M (k + d * nd)%nat (m + e * nd)%nat)).
  - unfold zero_m. ring.
  - intros M p Hp. apply conv_gpoint_at; auto.
Qed.

Lemma conv_qgrad_at nd dim p iw x k d m e : geometry dim p -> (k < nd)%nat -> (d < dim)%nat -> (m < nd)%nat -> (e < dim)%nat ->
  conv_qgrad nd dim p iw x (k + d * nd)%nat (m + e * nd)%nat = conv_gterm nd dim p iw x k d m e.
Proof. intros G Hk Hd Hm He. unfold conv_qgrad. rewrite conv_gpoint_at by auto. unfold zero_m. ring. Qed.

Lemma sum_field o nd (c : nat -> R) s h : forall dim, rsum dim (fun e => rsum nd (fun m => c e * s m * h (o + m + e * nd)%nat)) = rsum dim (fun e => c e * field o nd s h e).
Proof. intros dim. apply rsum_ext. intros e _. unfold field. rewrite <- rsum_scal. apply rsum_ext. intros. ring. Qed.

(** The directional derivative of a quadratic point contribution *)
Lemma conv_point_derivative nd dim p iw x h k d : q_vQ p = None -> (d < dim)%nat ->
  derivable_pt_lim (fun t => conv_term nd dim p iw (fun i => x i + t * h i) k d) 0
    (rsum dim (fun e => rsum nd (fun m => conv_gterm nd dim p iw x k d m e * h (m + e * nd)%nat))).
Proof.
  intros HV Hd.
  set (u := field 0 nd (q_shape p) x). set (v := field 0 nd (q_shape p) h).
  set (Du := deriv nd (dphys dim p) x d). set (Dv := deriv nd (dphys dim p) h d).
  set (c := q_shape p k * (iw * q_J p * coef (q_Q p))).
  replace (rsum dim (fun e => rsum nd (fun m => conv_gterm nd dim p iw x k d m e * h (m + e * nd)%nat)))
    with (c * rsum dim (fun e => Dv e * u e + Du e * v e)).
  - apply (quadratic_derivative _ (c * rsum dim (fun e => Du e * u e)) _ (c * rsum dim (fun e => Dv e * v e))).
    intros t. transitivity (c * rsum dim (fun e => deriv nd (dphys dim p) (fun i => x i + t * h i) d e * wind nd p (fun i => x i + t * h i) e)); [unfold conv_term, c; ring|].
    rewrite <- !rsum_scal, <- !rsum_plus. apply rsum_ext. intros e _. unfold wind. rewrite HV, field_lin, deriv_lin. unfold u, v, Du, Dv. ring.
  - rewrite rsum_plus, Rmult_plus_distr_l.
    transitivity (rsum dim (fun e => (if (d =? e)%nat then rsum nd (fun m => c * rsum dim (fun e' => dphys dim p m e' * u e') * h (m + e * nd)%nat) else 0)
                                     + c * (Du e * v e))).
    + rewrite rsum_plus, (rsum_delta dim d (fun e => rsum nd (fun m => c * rsum dim (fun e' => dphys dim p m e' * u e') * h (m + e * nd)%nat))) by auto.
      rewrite rsum_scal. f_equal.
      transitivity (rsum nd (fun m => rsum dim (fun e' => c * (dphys dim p m e' * h (m + d * nd)%nat * u e')))).
      * rewrite rsum_swap, <- rsum_scal. apply rsum_ext. intros e' _. unfold Dv, deriv. rewrite rsum_scal, rsum_scal_r. reflexivity.
      * apply rsum_ext. intros m _. rewrite <- rsum_scal, <- rsum_scal_r. apply rsum_ext. intros. ring.
    + apply rsum_ext. intros e _. unfold conv_gterm. fold u Du. fold (Du e).
      replace (c * (Du e * v e)) with (rsum nd (fun m => c * Du e * (q_shape p m * h (m + e * nd)%nat))) by (rewrite rsum_scal; unfold v, field; ring_simplify; f_equal).
      destruct (d =? e)%nat.
      * rewrite <- rsum_plus. apply rsum_ext. intros m _. unfold c. ring.
      * rewrite Rplus_0_l. apply rsum_ext. intros m _. unfold c. ring.
Qed.

Lemma conv_jacobian nd dim rule x : (forall p, In p rule -> geometry dim p /\ q_vQ p = None) ->
  is_jacobian (nd * dim) (conv_vector nd dim rule) (conv_grad nd dim rule x) x.
Proof.
  intros H. apply (jacobian_points nd dim rule _ _ _ (fun p => conv_term nd dim p (q_w p)) (fun p => conv_gterm nd dim p (q_w p) x)).
  - intros. apply conv_vector_at; auto.
  - intros. apply conv_grad_at; auto. apply H.
  - intros p h k d Hp Hk Hd. apply conv_point_derivative; auto. apply H; auto.
Qed.

Lemma conv_qjacobian nd dim p iw x : geometry dim p -> q_vQ p = None ->
  is_jacobian (nd * dim) (conv_qvector nd dim p iw) (conv_qgrad nd dim p iw x) x.
Proof.
  intros G V. apply (jacobian_points nd dim [tt] _ _ _ (fun _ => conv_term nd dim p iw) (fun _ => conv_gterm nd dim p iw x)).
  - intros. rewrite conv_qvector_at by auto. rewrite lsum_cons. symmetry. apply Rplus_0_r.
  - intros. rewrite conv_qgrad_at by auto. rewrite lsum_cons. symmetry. apply Rplus_0_r.
  - intros _ h k d _ Hk Hd. apply conv_point_derivative; auto.
Qed.

(** A vector given by point contributions spread over the shape functions, tested *)
Lemma tested_points {P} nd dim (rule : list P) (F : fv) (f : P -> nat -> nat -> R) v :
  (forall k d, (k < nd)%nat -> (d < dim)%nat -> F (k + d * nd)%nat = lsum (fun p => f p k d) rule) ->
  tested (nd * dim) v F = lsum (fun p => rsum dim (fun d => rsum nd (fun k => v (k + d * nd)%nat * f p k d))) rule.
Proof.
  intros H. unfold tested. rewrite rsum_grid, lsum_rsum. apply rsum_ext. intros d Hd. rewrite lsum_rsum. apply rsum_ext. intros k Hk.
  rewrite H by auto. rewrite <- lsum_mul. reflexivity.
Qed.

Lemma conv_weak nd dim rule u v : tested (nd * dim) v (conv_vector nd dim rule u) = integral (convection_at nd dim u v) rule.
Proof.
  rewrite (tested_points nd dim rule _ (fun p => conv_term nd dim p (q_w p) u)) by (intros; apply conv_vector_at; auto).
  unfold integral. apply lsum_ext_in. intros p _. unfold convection_at. rewrite <- rsum_scal. apply rsum_ext. intros d Hd.
  unfold conv_term.
  transitivity (field 0 nd (q_shape p) v d * (q_w p * q_J p * coef (q_Q p) * rsum dim (fun e => deriv nd (dphys dim p) u d e * wind nd p u e))).
  - unfold field. rewrite <- rsum_scal_r. apply rsum_ext. intros k _. change (0 + k + d * nd)%nat with (k + d * nd)%nat. ring.
  - rewrite <- rsum_scal, <- !rsum_scal. apply rsum_ext. intros e _. unfold wind. destruct (q_vQ p); ring.
Qed.

(** The rule as a sum of single points *)
Lemma conv_rule nd dim rule x i : (i < nd * dim)%nat ->
  conv_vector nd dim rule x i = lsum (fun p => conv_qvector nd dim p (q_w p) x i) rule.
Proof.
  intros Hi. destruct (grid_index nd dim i Hi) as (k & d & Hk & Hd & ->). rewrite conv_vector_at by auto.
  apply lsum_ext_in. intros p _. rewrite conv_qvector_at by auto. reflexivity.
Qed.
Lemma conv_rule_grad nd dim rule x i j : (forall p, In p rule -> geometry dim p) -> (i < nd * dim)%nat -> (j < nd * dim)%nat ->
  conv_grad nd dim rule x i j = lsum (fun p => conv_qgrad nd dim p (q_w p) x i j) rule.
Proof.
  intros G Hi Hj. destruct (grid_index nd dim i Hi) as (k & d & Hk & Hd & ->). destruct (grid_index nd dim j Hj) as (m & e & Hm & He & ->).
  rewrite conv_grad_at by auto. apply lsum_ext_in. intros p Hp. rewrite conv_qgrad_at by auto. reflexivity.
Qed.
