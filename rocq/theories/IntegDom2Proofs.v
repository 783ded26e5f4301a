(** The inviscid flux and the Temam form. *)
From Coq Require Import Reals List Bool Lia Arith Lra.
From Verif Require Import LaBase EqpSpec IntegModel IntegSpec IntegProofs IntegDomProofs.
Import ListNotations.
Local Open Scope R_scope.

(** ** Inviscid flux *)
Definition visc_term (nd dim : nat) (p : qpt) (iw : R) (x : fv) (k d : nat) : R :=
  iw * q_J p * coef (q_Q p) * rsum dim (fun e => dphys dim p k e * (field 0 nd (q_shape p) x d * field 0 nd (q_shape p) x e)).
Definition visc_gterm (nd dim : nat) (p : qpt) (iw : R) (x : fv) (k d m e : nat) : R :=
  iw * q_J p * coef (q_Q p) * q_shape p m *
  ((if (d =? e)%nat then rsum dim (fun e' => dphys dim p k e' * field 0 nd (q_shape p) x e') else 0) + field 0 nd (q_shape p) x d * dphys dim p k e).

Lemma visc_vector_at nd dim rule x k d : (k < nd)%nat ->
  visc_vector nd dim rule x (k + d * nd)%nat = lsum (fun p => visc_term nd dim p (q_w p) x k d) rule.
Proof.
  intros Hk. unfold visc_vector. rewrite unview_at by auto.
  rewrite (fold_add _ (fun p => visc_term nd dim p (q_w p) x k d) (fun M => M k d)).
  - unfold zero_m. ring.
  - intros M p _. cbn zeta. unfold add_abt. rewrite with_q_coef. unfold visc_term. f_equal. f_equal. apply rsum_ext. intros e _.
    unfold vwt. rewrite !view_field. reflexivity.
Qed.

Lemma visc_qvector_at nd dim p iw x k d : (k < nd)%nat ->
  visc_qvector nd dim p iw x (k + d * nd)%nat = visc_term nd dim p iw x k d.
Proof.
  intros Hk. unfold visc_qvector. cbn zeta. rewrite unview_at by auto. unfold add_ab, zero_m. rewrite with_q_coef, Rplus_0_l. unfold visc_term. f_equal.
  apply rsum_ext. intros e _. unfold vwt. rewrite !view_field, phys_dphys. ring.
Qed.

Lemma visc_gpoint_at nd dim p iw x M k d m e : (k < nd)%nat -> (d < dim)%nat -> (m < nd)%nat -> (e < dim)%nat ->
  visc_gpoint nd dim p iw (view 0 nd x) M (k + d * nd)%nat (m + e * nd)%nat =
  M (k + d * nd)%nat (m + e * nd)%nat + visc_gterm nd dim p iw x k d m e.
Proof.
  intros Hk Hd Hm He. unfold visc_gpoint. cbn zeta.
  rewrite full_loop by auto. rewrite diag_loop by auto. rewrite !with_q_coef.
  unfold visc_gterm, vwt. rewrite Rplus_assoc. f_equal.
  assert (V : mult dim (phys dim p) (scale (iw * q_J p * coef (q_Q p)) (mult_t nd (view 0 nd x) (q_shape p))) k =
              iw * q_J p * coef (q_Q p) * rsum dim (fun e' => dphys dim p k e' * field 0 nd (q_shape p) x e')).
  { unfold mult, scale. rewrite <- rsum_scal. apply rsum_ext. intros e' _. rewrite view_field, phys_dphys. ring. }
  rewrite V. unfold scale. rewrite view_field, phys_dphys. destruct (d =? e)%nat; ring.
Qed.

Lemma visc_grad_at nd dim rule x k d m e : (k < nd)%nat -> (d < dim)%nat -> (m < nd)%nat -> (e < dim)%nat ->
  visc_grad nd dim rule x (k + d * nd)%nat (m + e * nd)%nat = lsum (fun p => visc_gterm nd dim p (q_w p) x k d m e) rule.
Proof.
  intros Hk Hd Hm He. unfold visc_grad.
  rewrite (fold_add _ (fun p => visc_gterm nd dim p (q_w p) x k d m e) (fun M => M (k + d * nd)%nat (m + e * nd)%nat)).
  - unfold zero_m. ring.
  - intros M p Hp. apply visc_gpoint_at; auto.
Qed.

Lemma visc_qgrad_at nd dim p iw x k d m e : (k < nd)%nat -> (d < dim)%nat -> (m < nd)%nat -> (e < dim)%nat ->
  visc_qgrad nd dim p iw x (k + d * nd)%nat (m + e * nd)%nat = visc_gterm nd dim p iw x k d m e.
Proof. intros Hk Hd Hm He. unfold visc_qgrad. rewrite visc_gpoint_at by auto. unfold zero_m. ring. Qed.

Lemma visc_point_derivative nd dim p iw x h k d : (d < dim)%nat ->
  derivable_pt_lim (fun t => visc_term nd dim p iw (fun i => x i + t * h i) k d) 0
    (rsum dim (fun e => rsum nd (fun m => visc_gterm nd dim p iw x k d m e * h (m + e * nd)%nat))).
Proof.
  intros Hd.
  set (u := field 0 nd (q_shape p) x). set (v := field 0 nd (q_shape p) h).
  set (c := iw * q_J p * coef (q_Q p)). set (g := dphys dim p k).
  replace (rsum dim (fun e => rsum nd (fun m => visc_gterm nd dim p iw x k d m e * h (m + e * nd)%nat)))
    with (c * rsum dim (fun e => g e * (v d * u e + u d * v e))).
  - apply (quadratic_derivative _ (c * rsum dim (fun e => g e * (u d * u e))) _ (c * rsum dim (fun e => g e * (v d * v e)))).
    intros t. unfold visc_term. fold c g. rewrite <- !rsum_scal, <- !rsum_plus. apply rsum_ext. intros e _. rewrite !field_lin. fold u v g. ring.
  - transitivity (rsum dim (fun e => (if (d =? e)%nat then c * v e * rsum dim (fun e' => g e' * u e') else 0) + c * (u d * g e * v e))).
    + rewrite rsum_plus, (rsum_delta dim d (fun e => c * v e * rsum dim (fun e' => g e' * u e'))) by auto.
      rewrite <- rsum_scal, <- !rsum_scal, <- rsum_plus. apply rsum_ext. intros. ring.
    + apply rsum_ext. intros e _. unfold visc_gterm. fold u c g. fold (g e). fold (u d).
      set (A := if (d =? e)%nat then rsum dim (fun e' => g e' * u e') else 0).
      transitivity (c * (A + u d * g e) * v e).
      * unfold A. destruct (d =? e)%nat; ring.
      * unfold v, field. rewrite <- rsum_scal. apply rsum_ext. intros m _. change (0 + m + e * nd)%nat with (m + e * nd)%nat. ring.
Qed.

Lemma visc_jacobian nd dim rule x : is_jacobian (nd * dim) (visc_vector nd dim rule) (visc_grad nd dim rule x) x.
Proof.
  apply (jacobian_points nd dim rule _ _ _ (fun p => visc_term nd dim p (q_w p)) (fun p => visc_gterm nd dim p (q_w p) x)).
  - intros. apply visc_vector_at; auto.
  - intros. apply visc_grad_at; auto.
  - intros p h k d Hp Hk Hd. apply visc_point_derivative; auto.
Qed.

Lemma visc_qjacobian nd dim p iw x : is_jacobian (nd * dim) (visc_qvector nd dim p iw) (visc_qgrad nd dim p iw x) x.
Proof.
  apply (jacobian_points nd dim [tt] _ _ _ (fun _ => visc_term nd dim p iw) (fun _ => visc_gterm nd dim p iw x)).
  - intros. rewrite visc_qvector_at by auto. rewrite lsum_cons. symmetry. apply Rplus_0_r.
  - intros. rewrite visc_qgrad_at by auto. rewrite lsum_cons. symmetry. apply Rplus_0_r.
  - intros _ h k d _ Hk Hd. apply visc_point_derivative; auto.
Qed.

Lemma visc_weak nd dim rule u v : tested (nd * dim) v (visc_vector nd dim rule u) = integral (inviscid_at nd dim u v) rule.
Proof.
  rewrite (tested_points nd dim rule _ (fun p => visc_term nd dim p (q_w p) u)) by (intros; apply visc_vector_at; auto).
  unfold integral. apply lsum_ext_in. intros p _. unfold inviscid_at. rewrite <- rsum_scal. apply rsum_ext. intros d Hd.
  unfold visc_term. set (c := q_w p * q_J p * coef (q_Q p)).
  transitivity (rsum nd (fun k => rsum dim (fun e => c * (field 0 nd (q_shape p) u d * field 0 nd (q_shape p) u e) * (dphys dim p k e * v (k + d * nd)%nat)))).
  - apply rsum_ext. intros k _. rewrite <- !rsum_scal. apply rsum_ext. intros. ring.
  - rewrite rsum_swap, <- rsum_scal. apply rsum_ext. intros e _. rewrite rsum_scal. unfold deriv. ring.
Qed.

Lemma visc_rule nd dim rule x i : (i < nd * dim)%nat ->
  visc_vector nd dim rule x i = lsum (fun p => visc_qvector nd dim p (q_w p) x i) rule.
Proof.
  intros Hi. destruct (grid_index nd dim i Hi) as (k & d & Hk & Hd & ->). rewrite visc_vector_at by auto.
  apply lsum_ext_in. intros p _. rewrite visc_qvector_at by auto. reflexivity.
Qed.
Lemma visc_rule_grad nd dim rule x i j : (i < nd * dim)%nat -> (j < nd * dim)%nat ->
  visc_grad nd dim rule x i j = lsum (fun p => visc_qgrad nd dim p (q_w p) x i j) rule.
Proof.
  intros Hi Hj. destruct (grid_index nd dim i Hi) as (k & d & Hk & Hd & ->). destruct (grid_index nd dim j Hj) as (m & e & Hm & He & ->).
  rewrite visc_grad_at by auto. apply lsum_ext_in. intros p Hp. rewrite visc_qgrad_at by auto. reflexivity.
Qed.

(** ** Temam form: half the convection minus half the inviscid flux *)
Definition no_vq (p : qpt) : qpt := Qpt (q_w p) (q_shape p) (q_dref p) (q_inv p) (q_adj p) (q_J p) (q_Q p) None.

Lemma temam_vector_at nd dim rule x k d : (k < nd)%nat ->
  temam_vector nd dim rule x (k + d * nd)%nat =
  lsum (fun p => conv_term nd dim (no_vq p) (1 / 2 * q_w p) x k d - visc_term nd dim p (1 / 2 * q_w p) x k d) rule.
Proof.
  intros Hk. unfold temam_vector. rewrite unview_at by auto.
  rewrite (fold_add _ (fun p => conv_term nd dim (no_vq p) (1 / 2 * q_w p) x k d - visc_term nd dim p (1 / 2 * q_w p) x k d) (fun M => M k d)).
  - unfold zero_m. ring.
  - intros M p _. cbn zeta. unfold add_vwt, scale. rewrite with_q_coef, !view_field.
    set (w := 1 / 2 * q_w p * q_J p * coef (q_Q p)).
    assert (E1 : mult dim (mult_atb nd (view 0 nd x) (phys dim p)) (mult_t nd (view 0 nd x) (q_shape p)) d =
                 rsum dim (fun e => deriv nd (dphys dim p) x d e * field 0 nd (q_shape p) x e)).
    { unfold mult. apply rsum_ext. intros e _. rewrite view_deriv, view_field, deriv_phys. reflexivity. }
    assert (E2 : mult dim (phys dim p) (mult_t nd (view 0 nd x) (q_shape p)) k * (- w * field 0 nd (q_shape p) x d) = - visc_term nd dim p (1 / 2 * q_w p) x k d).
    { unfold mult, visc_term. fold w. rewrite <- rsum_scal.
      transitivity (rsum dim (fun e => phys dim p k e * field 0 nd (q_shape p) x e * (- w * field 0 nd (q_shape p) x d))).
      - rewrite rsum_scal_r. f_equal. apply rsum_ext. intros e _. rewrite view_field. reflexivity.
      - transitivity (rsum dim (fun e => -1 * (w * (dphys dim p k e * (field 0 nd (q_shape p) x d * field 0 nd (q_shape p) x e))))).
        + apply rsum_ext. intros e _. rewrite phys_dphys. ring.
        + rewrite rsum_scal. ring. }
    rewrite E1. rewrite (Rmult_1_l (mult dim (phys dim p) (mult_t nd (view 0 nd x) (q_shape p)) k * _)), E2.
    unfold conv_term, no_vq. cbn [q_shape q_J q_Q]. fold w. unfold wind. cbn [q_vQ q_shape].
    change (dphys dim (Qpt (q_w p) (q_shape p) (q_dref p) (q_inv p) (q_adj p) (q_J p) (q_Q p) None)) with (dphys dim p). ring.
Qed.

Lemma temam_grad_at nd dim rule x k d m e : (k < nd)%nat -> (d < dim)%nat -> (m < nd)%nat -> (e < dim)%nat ->
  temam_grad nd dim rule x (k + d * nd)%nat (m + e * nd)%nat =
  lsum (fun p => conv_gterm nd dim (no_vq p) (1 / 2 * q_w p) x k d m e - visc_gterm nd dim p (1 / 2 * q_w p) x k d m e) rule.
Proof.
  intros Hk Hd Hm He. unfold temam_grad.
  rewrite (fold_add _ (fun p => conv_gterm nd dim (no_vq p) (1 / 2 * q_w p) x k d m e - visc_gterm nd dim p (1 / 2 * q_w p) x k d m e)
    (fun M => M (k + d * nd)%nat (m + e * nd)%nat)).
  - unfold zero_m. ring.
  - intros M p _. cbn zeta. rewrite with_q_coef.
    set (w := 1 / 2 * q_w p * q_J p * coef (q_Q p)).
    set (u := mult_t nd (view 0 nd x) (q_shape p)). set (D := mult_atb nd (view 0 nd x) (phys dim p)).
    set (vec2 := mult dim (phys dim p) u).
    set (M1 := floop dim (fun d M => add_matrix (- w) (vwt vec2 (q_shape p)) nd nd (d * nd) (d * nd) M) M).
    set (M2 := floop dim (fun d M => add_matrix w (vwt (q_shape p) vec2) nd nd (d * nd) (d * nd) M) M1).
    rewrite (floop_add dim _ (fun i => if (i =? d)%nat then - w * (u i * phys dim p k e * q_shape p m) + w * D i e * (q_shape p k * q_shape p m) else 0)
      (fun M => M (k + d * nd)%nat (m + e * nd)%nat)).
    + rewrite (rsum_delta' dim d (fun i => - w * (u i * phys dim p k e * q_shape p m) + w * D i e * (q_shape p k * q_shape p m)) Hd).
      unfold M2, M1. rewrite !diag_loop by auto. unfold vwt.
      assert (V : forall i, vec2 i = rsum dim (fun e' => dphys dim p i e' * field 0 nd (q_shape p) x e')).
      { intros i. unfold vec2, mult. apply rsum_ext. intros e' _. unfold u. rewrite view_field. reflexivity. }
      rewrite !V. unfold u, D. rewrite view_field, view_deriv, phys_dphys, deriv_phys.
      unfold conv_gterm, visc_gterm, no_vq. cbn [q_shape q_J q_Q]. fold w.
      change (dphys dim (Qpt (q_w p) (q_shape p) (q_dref p) (q_inv p) (q_adj p) (q_J p) (q_Q p) None)) with (dphys dim p).
      destruct (d =? e)%nat; ring.
    + intros i M' Hi.
      rewrite (floop_add dim _ (fun j => if (i =? d)%nat then if (j =? e)%nat then - w * (u i * phys dim p k j * q_shape p m) + w * D i j * (q_shape p k * q_shape p m) else 0 else 0)
        (fun M => M (k + d * nd)%nat (m + e * nd)%nat)).
      * destruct (i =? d)%nat; [|rewrite rsum_zero; reflexivity].
        rewrite (rsum_delta' dim e (fun j => - w * (u i * phys dim p k j * q_shape p m) + w * D i j * (q_shape p k * q_shape p m)) He). reflexivity.
      * intros j M'' Hj.
        rewrite (add_matrix_at _ _ nd nd i j 0 0 _ _ _ k d m e); auto. rewrite (add_matrix_at _ _ nd nd i j 0 0 _ _ _ k d m e); auto.
        unfold vwt. destruct (i =? d)%nat, (j =? e)%nat; ring.
Qed.

Lemma derivative_minus f g x l l' : derivable_pt_lim f x l -> derivable_pt_lim g x l' -> derivable_pt_lim (fun t => f t - g t) x (l - l').
Proof. intros H H'. apply (derivative_ext (minus_fct f g)); [reflexivity|]. apply derivable_pt_lim_minus; auto. Qed.

Lemma temam_jacobian nd dim rule x : is_jacobian (nd * dim) (temam_vector nd dim rule) (temam_grad nd dim rule x) x.
Proof.
  apply (jacobian_points nd dim rule _ _ _
    (fun p y k d => conv_term nd dim (no_vq p) (1 / 2 * q_w p) y k d - visc_term nd dim p (1 / 2 * q_w p) y k d)
    (fun p k d m e => conv_gterm nd dim (no_vq p) (1 / 2 * q_w p) x k d m e - visc_gterm nd dim p (1 / 2 * q_w p) x k d m e)).
  - intros. apply temam_vector_at; auto.
  - intros. apply temam_grad_at; auto.
  - intros p h k d Hp Hk Hd.
    replace (rsum dim (fun e => rsum nd (fun m => (conv_gterm nd dim (no_vq p) (1 / 2 * q_w p) x k d m e - visc_gterm nd dim p (1 / 2 * q_w p) x k d m e) * h (m + e * nd)%nat)))
      with (rsum dim (fun e => rsum nd (fun m => conv_gterm nd dim (no_vq p) (1 / 2 * q_w p) x k d m e * h (m + e * nd)%nat)) -
            rsum dim (fun e => rsum nd (fun m => visc_gterm nd dim p (1 / 2 * q_w p) x k d m e * h (m + e * nd)%nat))).
    + apply derivative_minus; [apply conv_point_derivative; auto|apply visc_point_derivative; auto].
    + rewrite <- rsum_minus. apply rsum_ext. intros e _. rewrite <- rsum_minus. apply rsum_ext. intros. ring.
Qed.

Lemma temam_weak nd dim rule u v : tested (nd * dim) v (temam_vector nd dim rule u) = integral (temam_at nd dim u v) rule.
Proof.
  rewrite (tested_points nd dim rule _ (fun p k d => conv_term nd dim (no_vq p) (1 / 2 * q_w p) u k d - visc_term nd dim p (1 / 2 * q_w p) u k d)) by (intros; apply temam_vector_at; auto).
  unfold integral. apply lsum_ext_in. intros p _. unfold temam_at. rewrite <- rsum_scal, <- rsum_scal. apply rsum_ext. intros d Hd.
  set (c := q_w p * q_J p * coef (q_Q p)). set (U := field 0 nd (q_shape p) u). set (g := dphys dim p).
  transitivity (rsum nd (fun k => rsum dim (fun e => 1 / 2 * c * (q_shape p k * v (k + d * nd)%nat * (U e * deriv nd g u d e))
                                       - 1 / 2 * c * (U d * U e * (g k e * v (k + d * nd)%nat))))).
  - apply rsum_ext. intros k _. unfold conv_term, visc_term, no_vq. cbn [q_shape q_J q_Q].
    unfold wind. cbn [q_vQ q_shape]. fold U. fold g. rewrite rsum_minus.
    change (dphys dim (Qpt (q_w p) (q_shape p) (q_dref p) (q_inv p) (q_adj p) (q_J p) (q_Q p) None)) with g.
    transitivity (v (k + d * nd)%nat * (q_shape p k * (1 / 2 * q_w p * q_J p * coef (q_Q p) * rsum dim (fun e => deriv nd g u d e * U e)))
                  - v (k + d * nd)%nat * (1 / 2 * q_w p * q_J p * coef (q_Q p) * rsum dim (fun e => g k e * (U d * U e)))); [ring|].
    f_equal; rewrite <- !rsum_scal; apply rsum_ext; intros; unfold c; ring.
  - rewrite rsum_swap, <- rsum_scal, <- rsum_scal. apply rsum_ext. intros e _. rewrite rsum_minus, !rsum_scal, rsum_scal_r.
    fold (deriv nd g v d e). change (rsum nd (fun i => q_shape p i * v (i + d * nd)%nat)) with (field 0 nd (q_shape p) v d). unfold c. ring.
Qed.

(** The Temam form of a function tested with itself is zero *)
Lemma temam_energy nd dim rule u : tested (nd * dim) u (temam_vector nd dim rule u) = 0.
Proof.
  rewrite temam_weak. unfold integral. apply lsum_0. intros p _. unfold temam_at.
  replace (rsum dim _) with 0; [ring|]. symmetry. rewrite (rsum_ext dim _ (fun _ => 0)); [apply rsum_zero|].
  intros d _. rewrite (rsum_ext dim _ (fun _ => 0)); [apply rsum_zero|]. intros e _. ring.
Qed.
