(** Fast evaluation at one point: the projected evaluation of the element vectors and matrices. *)
From Coq Require Import Reals List Bool Lia Arith Lra ZArith FunctionalExtensionality.
From Verif Require Import HdfModel LaBase LinalgModel LinalgSpec IntegModel EqpModel EqpSpec IntegSpec IntegProofs IntegDomProofs IntegDom2Proofs IntegFaceProofs IntegLaxProofs IntegLax2Proofs
  IntegQuadProofs IntegMoreProofs IntegFastModel.
Import ListNotations.
Local Open Scope R_scope.

(** Combination of the basis functions *)
Definition comb (nb : nat) (bel : fm) (x : fv) : fv := fun r => rsum nb (fun i => bel r i * x i).
Definition colf (bel : fm) (i : nat) : fv := fun r => bel r i.
Definition unit (j : nat) : fv := fun i => if (i =? j)%nat then 1 else 0.

Lemma rsum_unit nb j f : (j < nb)%nat -> rsum nb (fun i => f i * unit j i) = f j.
Proof.
  intros H. rewrite <- (rsum_delta' nb j f H). apply rsum_ext. intros i _. unfold unit. destruct (i =? j)%nat; ring.
Qed.
Lemma comb_line nb bel x j t : (j < nb)%nat -> comb nb bel (fun i => x i + t * unit j i) = fun r => comb nb bel x r + t * colf bel j r.
Proof.
  intros H. apply functional_extensionality. intros r. unfold comb, colf. rewrite <- (rsum_unit nb j (bel r) H), <- rsum_scal, <- rsum_plus.
  apply rsum_ext. intros. ring.
Qed.
Lemma field_comb o nd s nb bel x d : field o nd s (comb nb bel x) d = rsum nb (fun i => field o nd s (colf bel i) d * x i).
Proof.
  unfold field, comb, colf.
  transitivity (rsum nd (fun m => rsum nb (fun i => s m * bel (o + m + d * nd)%nat i * x i))).
  - apply rsum_ext. intros m _. rewrite <- rsum_scal. apply rsum_ext. intros. ring.
  - rewrite rsum_swap. apply rsum_ext. intros i _. rewrite <- rsum_scal_r. reflexivity.
Qed.
Lemma deriv_comb nd g nb bel x d e : deriv nd g (comb nb bel x) d e = rsum nb (fun i => deriv nd g (colf bel i) d e * x i).
Proof.
  unfold deriv, comb, colf.
  transitivity (rsum nd (fun m => rsum nb (fun i => g m e * bel (m + d * nd)%nat i * x i))).
  - apply rsum_ext. intros m _. rewrite <- rsum_scal. apply rsum_ext. intros. ring.
  - rewrite rsum_swap. apply rsum_ext. intros i _. rewrite <- rsum_scal_r. reflexivity.
Qed.

Lemma pre_s1 nd dim p bel d i : pe_s1 (pre_elem nd dim p bel) d i = field 0 nd (q_shape p) (colf bel i) d.
Proof. apply view_field. Qed.
Lemma pre_d1 nd dim p bel i d e : pe_d1 (pre_elem nd dim p bel) i d e = deriv nd (dphys dim p) (colf bel i) d e.
Proof. cbn [pe_d1 pre_elem]. rewrite view_deriv. reflexivity. Qed.
Lemma fast_u1 nb nd dim p bel x d : mult nb (pe_s1 (pre_elem nd dim p bel)) x d = field 0 nd (q_shape p) (comb nb bel x) d.
Proof. rewrite field_comb. unfold mult. apply rsum_ext. intros. rewrite pre_s1. reflexivity. Qed.
Lemma fast_du nb nd dim p bel x d e : rsum nb (fun k => x k * pe_d1 (pre_elem nd dim p bel) k d e) = deriv nd (dphys dim p) (comb nb bel x) d e.
Proof. rewrite deriv_comb. apply rsum_ext. intros. rewrite pre_d1. ring. Qed.

(** ** The element integrators *)
Lemma conv_qtested nd dim p w u v : tested (nd * dim) v (conv_qvector nd dim p w u) = w * q_J p * coef (q_Q p) * convection_at nd dim u v p.
Proof.
  set (p' := Qpt w (q_shape p) (q_dref p) (q_inv p) (q_adj p) (q_J p) (q_Q p) (q_vQ p)).
  transitivity (tested (nd * dim) v (conv_vector nd dim [p'] u)).
  - unfold tested. apply rsum_ext. intros i Hi. rewrite conv_rule by auto. f_equal. rewrite lsum_cons. symmetry. apply Rplus_0_r.
  - rewrite conv_weak. unfold integral. rewrite lsum_cons. apply Rplus_0_r.
Qed.
Lemma visc_qtested nd dim p w u v : tested (nd * dim) v (visc_qvector nd dim p w u) = w * q_J p * coef (q_Q p) * inviscid_at nd dim u v p.
Proof.
  set (p' := Qpt w (q_shape p) (q_dref p) (q_inv p) (q_adj p) (q_J p) (q_Q p) (q_vQ p)).
  transitivity (tested (nd * dim) v (visc_vector nd dim [p'] u)).
  - unfold tested. apply rsum_ext. intros i Hi. rewrite visc_rule by auto. f_equal. rewrite lsum_cons. symmetry. apply Rplus_0_r.
  - rewrite visc_weak. unfold integral. rewrite lsum_cons. apply Rplus_0_r.
Qed.

Lemma conv_fast_ok nb nd dim p w bel x y j : q_vQ p = None ->
  conv_fast nb dim p w (pre_elem nd dim p bel) x y j = y j + tested (nd * dim) (colf bel j) (conv_qvector nd dim p w (comb nb bel x)).
Proof.
  intros V. rewrite conv_qtested. unfold conv_fast. cbn zeta. rewrite with_q_coef. f_equal. f_equal. unfold mult_t, convection_at. rewrite V.
  apply rsum_ext. intros d _. rewrite pre_s1. unfold mult at 1. rewrite <- rsum_scal. apply rsum_ext. intros e _.
  rewrite fast_u1, fast_du. ring.
Qed.
Lemma visc_fast_ok nb nd dim p w bel x y j :
  visc_fast nb dim p w (pre_elem nd dim p bel) x y j = y j + tested (nd * dim) (colf bel j) (visc_qvector nd dim p w (comb nb bel x)).
Proof.
  rewrite visc_qtested. unfold visc_fast. cbn zeta. rewrite with_q_coef. f_equal. f_equal. unfold inner, inviscid_at.
  apply rsum_ext. intros d _. rewrite fast_u1. unfold mult at 1. rewrite <- rsum_scal. apply rsum_ext. intros e _.
  rewrite fast_u1, pre_d1. ring.
Qed.

(** A fast matrix that is the derivative of a fast vector equals the projected matrix *)
Lemma fast_grad_by_derivative n nb bel (F : fv -> fv) (G : fm) (fastv : fv -> fv) x i j l : (j < nb)%nat ->
  (forall x, fastv x i = tested n (colf bel i) (F (comb nb bel x))) -> is_jacobian n F G (comb nb bel x) ->
  derivable_pt_lim (fun t => fastv (fun k => x k + t * unit j k) i) 0 l -> l = rap n n bel G bel i j.
Proof.
  intros Hj HF HG D.
  assert (D' : derivable_pt_lim (fun t => fastv (fun k => x k + t * unit j k) i) 0 (rap n n bel G bel i j)).
  { eapply derivative_ext; [intros t; symmetry; rewrite HF, comb_line by auto; reflexivity|]. unfold tested, rap.
    apply (derivative_rsum n (fun r t => colf bel i r * F (fun r => comb nb bel x r + t * colf bel j r) r)). intros r Hr.
    apply derivative_scal. apply (HG (colf bel j) r Hr). }
  apply (uniqueness_limite _ _ _ _ D D').
Qed.

Lemma mult_line nb A x j t d : (j < nb)%nat -> mult nb A (fun k => x k + t * unit j k) d = mult nb A x d + t * A d j.
Proof. intros H. unfold mult. rewrite <- (rsum_unit nb j (A d) H), <- rsum_scal, <- rsum_plus. apply rsum_ext. intros. ring. Qed.
Lemma comb_line' nb (D : nat -> fm) x j t d e : (j < nb)%nat ->
  rsum nb (fun k => (x k + t * unit j k) * D k d e) = rsum nb (fun k => x k * D k d e) + t * D j d e.
Proof. intros H. rewrite <- (rsum_unit nb j (fun k => D k d e) H), <- rsum_scal, <- rsum_plus. apply rsum_ext. intros. ring. Qed.

Lemma conv_fast_grad_ok nb nd dim p w bel x jac i j : q_vQ p = None -> geometry dim p -> (j < nb)%nat ->
  conv_fast_grad nb dim p w (pre_elem nd dim p bel) x jac i j =
  jac i j + rap (nd * dim) (nd * dim) bel (conv_qgrad nd dim p w (comb nb bel x)) bel i j.
Proof.
  intros V Ge Hj. set (s := pre_elem nd dim p bel).
  assert (E : conv_fast_grad nb dim p w s x jac i j = jac i j + with_q (q_Q p) (w * q_J p) *
    rsum dim (fun d => pe_s1 s d i * rsum dim (fun e => rsum nb (fun k => x k * pe_d1 s k d e) * pe_s1 s e j + pe_d1 s j d e * mult nb (pe_s1 s) x e))).
  { unfold conv_fast_grad. cbn zeta. f_equal. unfold mult_t. rewrite <- rsum_scal. apply rsum_ext. intros d _. unfold mult_ab, mult at 1.
    set (W := with_q (q_Q p) (w * q_J p)).
    transitivity (pe_s1 s d i * (W * rsum dim (fun e => rsum nb (fun k => x k * pe_d1 s k d e) * pe_s1 s e j + pe_d1 s j d e * mult nb (pe_s1 s) x e))); [|ring].
    f_equal. rewrite rsum_plus, Rmult_plus_distr_l. f_equal. rewrite <- rsum_scal. apply rsum_ext. intros. ring. }
  rewrite E. f_equal.
  apply (fast_grad_by_derivative (nd * dim) nb bel (conv_qvector nd dim p w) _ (fun x => conv_fast nb dim p w s x (fun _ => 0)) x); auto.
  - intros x'. unfold s. rewrite conv_fast_ok by auto. apply Rplus_0_l.
  - apply conv_qjacobian; auto.
  - eapply (quadratic_derivative _ (conv_fast nb dim p w s x (fun _ => 0) i) _
      (with_q (q_Q p) (w * q_J p) * rsum dim (fun d => pe_s1 s d i * rsum dim (fun e => pe_d1 s j d e * pe_s1 s e j)))).
    intros t. unfold conv_fast. cbn zeta. rewrite !Rplus_0_l. set (W := with_q (q_Q p) (w * q_J p)).
    set (P1 := rsum dim (fun d => pe_s1 s d i * rsum dim _)). set (P2 := rsum dim (fun d => pe_s1 s d i * rsum dim (fun e => pe_d1 s j d e * pe_s1 s e j))).
    set (P0 := mult_t dim (pe_s1 s) (mult dim _ (mult nb (pe_s1 s) x)) i). transitivity (W * (P0 + t * P1 + t * t * P2)); [|ring]. f_equal.
    unfold P0, P1, P2, mult_t. rewrite <- !rsum_scal, <- !rsum_plus. apply rsum_ext. intros d _. 
    set (Q1 := rsum dim (fun e => rsum nb (fun k => x k * pe_d1 s k d e) * pe_s1 s e j + pe_d1 s j d e * mult nb (pe_s1 s) x e)).
    set (Q2 := rsum dim (fun e => pe_d1 s j d e * pe_s1 s e j)). set (Q0 := mult dim _ (mult nb (pe_s1 s) x) d).
    transitivity (pe_s1 s d i * (Q0 + t * Q1 + t * t * Q2)); [|ring]. f_equal. unfold Q0, Q1, Q2. unfold mult at 1 3.
    rewrite <- !rsum_scal, <- !rsum_plus. apply rsum_ext. intros e _. rewrite comb_line', mult_line by auto. ring.
Qed.

Lemma visc_fast_grad_ok nb nd dim p w bel x jac i j : (j < nb)%nat ->
  visc_fast_grad nb dim p w (pre_elem nd dim p bel) x jac i j =
  jac i j + rap (nd * dim) (nd * dim) bel (visc_qgrad nd dim p w (comb nb bel x)) bel i j.
Proof.
  intros Hj. set (s := pre_elem nd dim p bel).
  assert (E : visc_fast_grad nb dim p w s x jac i j = jac i j + with_q (q_Q p) (w * q_J p) *
    rsum dim (fun d => rsum dim (fun e => pe_d1 s i d e * (pe_s1 s d j * mult nb (pe_s1 s) x e + mult nb (pe_s1 s) x d * pe_s1 s e j)))).
  { unfold visc_fast_grad. cbn zeta. f_equal. unfold mult_t. set (u := mult nb (pe_s1 s) x). set (W := with_q (q_Q p) (w * q_J p)).
    transitivity (W * (rsum dim (fun d => rsum dim (fun e => pe_d1 s i d e * (pe_s1 s d j * u e))) + rsum dim (fun d => rsum dim (fun e => pe_d1 s i d e * (u d * pe_s1 s e j))))).
    - rewrite (rsum_swap _ _ (fun d e => pe_d1 s i d e * (u d * pe_s1 s e j))), <- rsum_plus, <- rsum_scal. apply rsum_ext. intros d _. unfold mult, scale.
      rewrite Rmult_plus_distr_l, Rmult_plus_distr_l. f_equal; rewrite <- !rsum_scal; apply rsum_ext; intros; ring.
    - f_equal. rewrite <- rsum_plus. apply rsum_ext. intros d _. rewrite <- rsum_plus. apply rsum_ext. intros. ring. }
  rewrite E. f_equal.
  apply (fast_grad_by_derivative (nd * dim) nb bel (visc_qvector nd dim p w) _ (fun x => visc_fast nb dim p w s x (fun _ => 0)) x); auto.
  - intros x'. unfold s. rewrite visc_fast_ok by auto. apply Rplus_0_l.
  - apply visc_qjacobian; auto.
  - eapply (quadratic_derivative _ (visc_fast nb dim p w s x (fun _ => 0) i) _
      (with_q (q_Q p) (w * q_J p) * rsum dim (fun d => rsum dim (fun e => pe_d1 s i d e * (pe_s1 s d j * pe_s1 s e j))))).
    intros t. unfold visc_fast. cbn zeta. rewrite !Rplus_0_l. set (W := with_q (q_Q p) (w * q_J p)).
    set (P1 := rsum dim (fun d => rsum dim (fun e => pe_d1 s i d e * (pe_s1 s d j * mult nb (pe_s1 s) x e + mult nb (pe_s1 s) x d * pe_s1 s e j)))).
    set (P2 := rsum dim (fun d => rsum dim (fun e => pe_d1 s i d e * (pe_s1 s d j * pe_s1 s e j)))).
    set (P0 := inner dim (mult nb (pe_s1 s) x) _). transitivity (W * (P0 + t * P1 + t * t * P2)); [|ring]. f_equal.
    unfold P0, P1, P2, inner. rewrite <- !rsum_scal, <- !rsum_plus. apply rsum_ext. intros d _. rewrite mult_line by auto.
    repeat change (mult dim (pe_d1 s i) ?v d) with (rsum dim (fun e => pe_d1 s i d e * v e)).
    rewrite <- !rsum_scal, <- !rsum_plus. apply rsum_ext. intros e _. rewrite mult_line by auto. ring.
Qed.

(** ** The Lax-Friedrichs flux *)
Lemma face_s1 nd1 nd2 dim p bel d i : pe_s1 (pre_face nd1 nd2 dim p bel) d i = field 0 nd1 (f_s1 p) (colf bel i) d.
Proof. apply view_field. Qed.
Lemma face_s2 nd1 nd2 dim p bel d i : nd2 <> 0%nat -> pe_s2 (pre_face nd1 nd2 dim p bel) d i = field (nd1 * dim) nd2 (f_s2 p) (colf bel i) d.
Proof. intros N. cbn [pe_s2 pre_face]. destruct (Nat.eqb_spec nd2 0); [contradiction|]. apply view_field. Qed.
Lemma face_u1 nb nd1 nd2 dim p bel x : mult nb (pe_s1 (pre_face nd1 nd2 dim p bel)) x = field 0 nd1 (f_s1 p) (comb nb bel x).
Proof. apply functional_extensionality. intros d. rewrite field_comb. unfold mult. apply rsum_ext. intros. rewrite face_s1. reflexivity. Qed.
Lemma face_u2 nb nd1 nd2 dim p bel x : nd2 <> 0%nat -> mult nb (pe_s2 (pre_face nd1 nd2 dim p bel)) x = field (nd1 * dim) nd2 (f_s2 p) (comb nb bel x).
Proof. intros N. apply functional_extensionality. intros d. rewrite field_comb. unfold mult. apply rsum_ext. intros. rewrite face_s2 by auto. reflexivity. Qed.

Lemma lf_fast_ok nb nd1 nd2 dim ud p w bel x y j old old' :
  lf_fast nb dim (negb (nd2 =? 0)%nat) ud p w (pre_face nd1 nd2 dim p bel) x old y j =
  y j + tested (nd1 * dim + nd2 * dim) (colf bel j) (lf_face_qvector nd1 nd2 dim ud p w (comb nb bel x) old').
Proof.
  destruct (Nat.eqb_spec nd2 0) as [->|N].
  - rewrite Nat.mul_0_l, Nat.add_0_r. cbn [negb].
    pose proof (lf_bdr_weak nd1 dim ud (fun _ => w) [p] (colf bel j) (comb nb bel x) old') as E.
    etransitivity; [|apply f_equal; symmetry; exact E]. rewrite lsum_cons. unfold lsum at 1. cbn [fold_right].
    unfold lf_fast. cbn zeta. cbn [orb negb]. rewrite with_q_coef, Rplus_0_r. f_equal. rewrite <- !Ropp_mult_distr_l. f_equal. f_equal. unfold mult_t. apply rsum_ext. intros d _.
    rewrite face_s1. f_equal. rewrite face_u1. unfold lf_fast_u2. destruct ud; cbn [orb]; [rewrite lf_flux_two|rewrite lf_flux_one]; reflexivity.
  - cbn [negb]. pose proof (lf_face_weak nd1 nd2 dim ud (fun _ => w) [p] (colf bel j) (comb nb bel x) old' N) as E.
    etransitivity; [|apply f_equal; symmetry; exact E]. rewrite lsum_cons. unfold lsum at 1. cbn [fold_right].
    unfold lf_fast. cbn zeta. cbn [orb negb]. rewrite with_q_coef, Rplus_0_r. unfold lf_fast_u2. rewrite face_u1, face_u2 by auto.
    rewrite Rplus_assoc. f_equal. unfold mult_t.
    etransitivity; [|symmetry; apply Ropp_mult_distr_l]. rewrite <- !rsum_scal, <- rsum_plus. apply rsum_ext. intros d _. rewrite face_s1, face_s2, lf_flux_two by auto. ring.
Qed.

(** The first gradient does not depend on the flag for the second *)
Lemma lf_grad_flag dim u1 u2 nor eval2 b g : lf_grad dim u1 u2 nor eval2 b = Some g -> forall b', exists g', lf_grad dim u1 u2 nor eval2 b' = Some (fst g, g').
Proof.
  unfold lf_grad. cbn zeta. destruct eval2; cbn [negb]; [|intros E b'; injection E as <-; eexists; reflexivity].
  set (m1 := sqrt (inner dim u1 u1)). set (m2 := sqrt (inner dim u2 u2)).
  destruct (Rle_dec m2 m1) as [H|H]; cbn [negb andb].
  - intros E b'. revert E. destruct b, b'; cbn [negb andb]; destruct (Req_EM_T m1 0); intros E; try discriminate; injection E as <-; eexists; reflexivity.
  - assert (m2 <> 0) by (pose proof (sqrt_pos (inner dim u1 u1) : 0 <= m1); lra).
    intros E b'. revert E. destruct b, b'; cbn [negb andb]; destruct (Req_EM_T m2 0); try contradiction; intros E; injection E as <-; eexists; reflexivity.
Qed.

Lemma lf_fast_grad_ok nb nd1 nd2 dim ud memb p w bel x jac old old' : (nd2 <> 0%nat -> memb = true) ->
  smooth_face nd1 nd2 dim ud [p] (comb nb bel x) ->
  exists G J, lf_face_qgrad nd1 nd2 dim ud p w (comb nb bel x) old' = Some G /\
    lf_fast_grad nb dim (negb (nd2 =? 0)%nat) ud memb p w (pre_face nd1 nd2 dim p bel) x old jac = Some J /\
    forall i j, (j < nb)%nat -> J i j = jac i j + rap (nd1 * dim + nd2 * dim) (nd1 * dim + nd2 * dim) bel G bel i j.
Proof.
  intros Hm Hs. set (s := pre_face nd1 nd2 dim p bel). set (N := (nd1 * dim + nd2 * dim)%nat). set (el2 := negb (nd2 =? 0)%nat).
  destruct (lf_face_jacobian nd1 nd2 dim ud (fun _ => w) [p] (comb nb bel x) old' (smooth_face_ok _ _ _ _ _ _ _ Hs)) as (G & EG & JG).
  exists G. set (u1 := mult nb (pe_s1 s) x). set (u2 := lf_fast_u2 nb el2 ud p s x old).
  assert (Sm : el2 || ud = true -> smooth_at dim u1 u2).
  { intros E. specialize (Hs p (or_introl eq_refl)). unfold u1, u2, s, lf_fast_u2. rewrite face_u1. unfold el2 in *. destruct (Nat.eqb_spec nd2 0) as [->|N2]; cbn [negb orb] in *.
    - rewrite E in *. exact Hs.
    - rewrite face_u2 by auto. exact Hs. }
  destruct (lf_grad_some dim u1 u2 (f_nor p) (el2 || ud) el2 Sm) as ((g1 & g2) & Eg).
  destruct (lf_grad_flag _ _ _ _ _ _ _ Eg memb) as (g2' & Em). cbn [fst] in Em.
  assert (Eg2 : el2 = true -> g2' = g2).
  { intros E. assert (M : memb = el2). { rewrite E. apply Hm. unfold el2 in E. destruct (Nat.eqb_spec nd2 0); [discriminate|auto]. } rewrite M, Eg in Em. injection Em as ->. auto. }
  unfold lf_fast_grad. cbn zeta. fold u1 u2. rewrite Em. set (W := with_q (f_Q p) w). eexists. split; [exact EG|]. split; [reflexivity|].
  intros i j Hj.
  set (v1 := fun d => pe_s1 s d j). set (v2 := fun d => if el2 then pe_s2 s d j else 0).
  set (dv := fun d => rsum dim (fun e => g1 d e * v1 e) + rsum dim (fun e => g2 d e * v2 e)).
  transitivity (jac i j + (- W * rsum dim (fun d => pe_s1 s d i * dv d) + (if el2 then W * rsum dim (fun d => pe_s2 s d i * dv d) else 0))).
  { unfold dv, v1, v2. destruct el2 eqn:E2.
    - rewrite (Eg2 eq_refl). unfold add_rtap. rewrite (rsum_ext dim (fun d => pe_s1 s d i * (_ + _)) (fun d => pe_s1 s d i * rsum dim (fun e => g1 d e * pe_s1 s e j) + pe_s1 s d i * rsum dim (fun e => g2 d e * pe_s2 s e j))) by (intros; ring).
      rewrite (rsum_ext dim (fun d => pe_s2 s d i * (_ + _)) (fun d => pe_s2 s d i * rsum dim (fun e => g1 d e * pe_s1 s e j) + pe_s2 s d i * rsum dim (fun e => g2 d e * pe_s2 s e j))) by (intros; ring).
      rewrite !rsum_plus. ring.
    - unfold add_rtap. rewrite Rplus_0_r. f_equal. f_equal. apply rsum_ext. intros d _. f_equal.
      rewrite (rsum_ext dim (fun e => g2 d e * 0) (fun _ => 0)) by (intros; ring). rewrite rsum_zero. ring. }
  f_equal.
  apply (fast_grad_by_derivative N nb bel (fun y => lf_face_qvector nd1 nd2 dim ud p w y old') _ (fun x => lf_fast nb dim el2 ud p w s x old (fun _ => 0)) x); auto.
  - intros x'. unfold s, el2. rewrite (lf_fast_ok nb nd1 nd2 dim ud p w bel x' (fun _ => 0) i old old'). apply Rplus_0_l.
  - eapply (derivative_ext (fun t => - W * rsum dim (fun d => pe_s1 s d i * lf_flux dim (line u1 v1 t) (line u2 v2 t) (f_nor p) (el2 || ud) d)
      + (if el2 then W else 0) * rsum dim (fun d => pe_s2 s d i * lf_flux dim (line u1 v1 t) (line u2 v2 t) (f_nor p) (el2 || ud) d))).
    + intros t. unfold lf_fast. cbn zeta. fold W.
      assert (E1 : mult nb (pe_s1 s) (fun k => x k + t * unit j k) = line u1 v1 t).
      { apply functional_extensionality. intros d. rewrite mult_line by auto. reflexivity. }
      assert (E2 : lf_fast_u2 nb el2 ud p s (fun k => x k + t * unit j k) old = line u2 v2 t).
      { apply functional_extensionality. intros d. unfold u2, v2, line, lf_fast_u2. destruct el2; [rewrite mult_line by auto; reflexivity|ring]. }
      rewrite E1, E2. unfold mult_t. destruct el2; ring.
    + replace (if el2 then W * rsum dim (fun d => pe_s2 s d i * dv d) else 0) with ((if el2 then W else 0) * rsum dim (fun d => pe_s2 s d i * dv d)) by (destruct el2; ring).
      assert (D : forall d, (d < dim)%nat -> derivable_pt_lim (fun t => lf_flux dim (line u1 v1 t) (line u2 v2 t) (f_nor p) (el2 || ud) d) 0 (dv d)).
      { intros d Hd. apply (lf_flux_derivative dim u1 u2 v1 v2 (f_nor p) (el2 || ud) el2 g1 g2 d Eg Hd); auto.
        - intros E. unfold v2. rewrite E. reflexivity.
        - destruct el2; [discriminate|auto]. }
      apply derivable_pt_lim_plus; apply derivative_scal; apply (derivative_rsum dim (fun d t => _ * lf_flux dim (line u1 v1 t) (line u2 v2 t) (f_nor p) (el2 || ud) d) (fun d => _ * dv d));
        intros d Hd; apply derivative_scal; auto.
Qed.
