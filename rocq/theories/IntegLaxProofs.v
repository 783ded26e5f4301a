(** The Lax-Friedrichs flux: its derivative, values and Jacobians of the face and interface integrators. *)
From Coq Require Import Reals List Bool Lia Arith Lra FunctionalExtensionality.
From Verif Require Import LaBase EqpSpec IntegModel IntegSpec IntegProofs IntegDomProofs IntegFaceProofs.
Import ListNotations.
Local Open Scope R_scope.

(** ** Calculus along a line *)
Lemma derivative_local f g x l : (exists dl, 0 < dl /\ forall t, Rabs (t - x) < dl -> f t = g t) -> derivable_pt_lim g x l -> derivable_pt_lim f x l.
Proof.
  intros (dl & Hp & E) H eps He. destruct (H eps He) as (d1 & H1).
  assert (Hm : 0 < Rmin dl d1) by (apply Rmin_glb_lt; [exact Hp|apply cond_pos]).
  exists (mkposreal _ Hm). intros h Hh Hl. cbn in Hl.
  rewrite !E; [apply H1; auto; eapply Rlt_le_trans; [exact Hl|apply Rmin_r]| |].
  - rewrite Rminus_diag_eq by reflexivity. rewrite Rabs_R0. auto.
  - replace (x + h - x) with h by ring. eapply Rlt_le_trans; [exact Hl|apply Rmin_l].
Qed.

Lemma inner_pos n u : 0 <= inner n u u.
Proof. unfold inner. apply rsum_nonneg. intros. nra. Qed.

Definition line (u v : fv) (t : R) : fv := fun e => u e + t * v e.

Lemma inner_line n u v t : inner n (line u v t) (line u v t) = inner n u u + t * (2 * inner n u v) + t * t * inner n v v.
Proof. unfold inner, line. rewrite <- !rsum_scal, <- !rsum_plus. apply rsum_ext. intros. ring. Qed.

Lemma inner_line_derivative n u v : derivable_pt_lim (fun t => inner n (line u v t) (line u v t)) 0 (2 * inner n u v).
Proof. apply (quadratic_derivative _ (inner n u u) _ (inner n v v)). intros t. rewrite inner_line. ring. Qed.

Lemma line_0 u v : line u v 0 = u.
Proof. apply functional_extensionality. intros e. unfold line. ring. Qed.

Definition mag (n : nat) (u : fv) : R := sqrt (inner n u u).

Lemma mag_continuous n u v : continuity_pt (fun t => mag n (line u v t)) 0.
Proof.
  apply (continuity_pt_comp (fun t => inner n (line u v t) (line u v t)) sqrt).
  - apply derivable_continuous_pt. exists (2 * inner n u v). apply inner_line_derivative.
  - apply continuity_pt_sqrt. apply inner_pos.
Qed.

Lemma mag_derivative n u v : mag n u <> 0 -> derivable_pt_lim (fun t => mag n (line u v t)) 0 (inner n u v / mag n u).
Proof.
  intros H. assert (Hp : 0 < inner n u u).
  { destruct (inner_pos n u) as [|E]; [auto|]. exfalso. apply H. unfold mag. rewrite <- E. apply sqrt_0. }
  pose proof (derivable_pt_lim_comp (fun t => inner n (line u v t) (line u v t)) sqrt 0 (2 * inner n u v) (/ (2 * sqrt (inner n u u))) (inner_line_derivative n u v)) as E.
  cbv beta in E. rewrite line_0 in E. specialize (E (derivable_pt_lim_sqrt _ Hp)).
  replace (inner n u v / mag n u) with (/ (2 * sqrt (inner n u u)) * (2 * inner n u v)); [exact E|].
  unfold mag in *. field. exact H.
Qed.

(** The larger of two speeds, where they differ *)
Lemma max_left f g : continuity_pt f 0 -> continuity_pt g 0 -> g 0 < f 0 -> exists dl, 0 < dl /\ forall t, Rabs (t - 0) < dl -> Rmax (f t) (g t) = f t.
Proof.
  intros Hf Hg H. destruct (Hf ((f 0 - g 0) / 2) ltac:(lra)) as (d1 & P1 & H1). destruct (Hg ((f 0 - g 0) / 2) ltac:(lra)) as (d2 & P2 & H2).
  exists (Rmin d1 d2). split; [apply Rmin_glb_lt; auto|]. intros t Ht.
  destruct (Req_dec t 0) as [->|N]; [apply Rmax_left; lra|].
  assert (A1 : Rabs (f t - f 0) < (f 0 - g 0) / 2).
  { apply H1. split; [split; [exact I|auto]|]. eapply Rlt_le_trans; [exact Ht|apply Rmin_l]. }
  assert (A2 : Rabs (g t - g 0) < (f 0 - g 0) / 2).
  { apply H2. split; [split; [exact I|auto]|]. eapply Rlt_le_trans; [exact Ht|apply Rmin_r]. }
  apply Rabs_def2 in A1. apply Rabs_def2 in A2. apply Rmax_left. lra.
Qed.

Lemma max_continuous f g : continuity_pt f 0 -> continuity_pt g 0 -> continuity_pt (fun t => Rmax (f t) (g t)) 0.
Proof.
  intros Hf Hg eps He. destruct (Hf eps He) as (d1 & P1 & H1). destruct (Hg eps He) as (d2 & P2 & H2).
  exists (Rmin d1 d2). split; [apply Rmin_glb_lt; auto|]. intros t (Hn & Ht).
  assert (A1 : Rabs (f t - f 0) < eps) by (apply H1; split; [exact Hn|eapply Rlt_le_trans; [exact Ht|apply Rmin_l]]).
  assert (A2 : Rabs (g t - g 0) < eps) by (apply H2; split; [exact Hn|eapply Rlt_le_trans; [exact Ht|apply Rmin_r]]).
  cbn. unfold R_dist. apply Rabs_def2 in A1. apply Rabs_def2 in A2. apply Rabs_def1; unfold Rmax; destruct (Rle_dec (f t) (g t)), (Rle_dec (f 0) (g 0)); lra.
Qed.

(** A product whose second factor vanishes *)
Lemma vanishing_product f z : continuity_pt f 0 -> derivable_pt_lim (fun t => f t * (t * z)) 0 (f 0 * z).
Proof.
  intros Hf eps He. destruct (Req_dec z 0) as [->|Nz].
  - exists (mkposreal 1 Rlt_0_1). intros h Hh _. replace ((f (0 + h) * ((0 + h) * 0) - f 0 * (0 * 0)) / h - f 0 * 0) with 0 by (field; auto). rewrite Rabs_R0. auto.
  - assert (Pz : 0 < Rabs z) by (apply Rabs_pos_lt; auto).
    destruct (Hf (eps / Rabs z)) as (d1 & P1 & H1); [apply Rdiv_lt_0_compat; auto|].
    exists (mkposreal d1 P1). intros h Hh Hl. cbn in Hl.
    replace ((f (0 + h) * ((0 + h) * z) - f 0 * (0 * z)) / h - f 0 * z) with ((f h - f 0) * z) by (rewrite Rplus_0_l; field; auto).
    rewrite Rabs_mult.
    assert (A : Rabs (f h - f 0) < eps / Rabs z).
    { apply H1. split; [split; [exact I|auto]|]. cbn. unfold R_dist. rewrite Rminus_0_r. auto. }
    apply (Rmult_lt_compat_r (Rabs z)) in A; auto. replace (eps / Rabs z * Rabs z) with eps in A by (field; lra). exact A.
Qed.

(** ** The flux *)
Lemma lf_flux_two dim u1 u2 nor d : lf_flux dim u1 u2 nor true d = lax dim nor u1 u2 d.
Proof.
  unfold lf_flux, lax, speed. change (vdot dim) with (inner dim). unfold scale. field.
Qed.
Lemma lf_flux_one dim u1 u2 nor d : lf_flux dim u1 u2 nor false d = vdot dim nor u1 * u1 d.
Proof. reflexivity. Qed.

(** Where the flux has a derivative *)

Lemma lf_grad_some dim u1 u2 nor eval2 nd2 : (eval2 = true -> smooth_at dim u1 u2) -> exists g, lf_grad dim u1 u2 nor eval2 nd2 = Some g.
Proof.
  intros H. unfold lf_grad. cbn zeta. destruct eval2; cbn [negb]; [|eauto]. specialize (H eq_refl).
  unfold smooth_at, speed in H. change (vdot dim) with (inner dim) in H.
  pose proof (sqrt_pos (inner dim u1 u1)) as P1. pose proof (sqrt_pos (inner dim u2 u2)) as P2.
  destruct (negb nd2 && _); [eauto|].
  destruct (Rle_dec (sqrt (inner dim u2 u2)) (sqrt (inner dim u1 u1))) as [L|L].
  - destruct (Req_EM_T (sqrt (inner dim u1 u1)) 0) as [E|E]; [exfalso|eauto]. destruct H as [H|(_ & H)]; [apply H; lra|auto].
  - destruct (Req_EM_T (sqrt (inner dim u2 u2)) 0) as [E|E]; [exfalso; lra|eauto].
Qed.

Lemma sum_rank2 dim d c b1 b2 (n1 n2 v : fv) : (d < dim)%nat ->
  rsum dim (fun e => ((if (d =? e)%nat then c else 0) + b1 * n1 e + b2 * n2 e) * v e) = c * v d + b1 * inner dim n1 v + b2 * inner dim n2 v.
Proof.
  intros H. transitivity (rsum dim (fun e => ((if (d =? e)%nat then c else 0) + b1 * n1 e) * v e + b2 * n2 e * v e)).
  - apply rsum_ext. intros e _. ring.
  - rewrite rsum_plus, sum_rank1, sum_vec by auto. reflexivity.
Qed.

Lemma inner_scale n c a b : inner n (scale c a) b = c * inner n a b.
Proof. unfold inner, scale. rewrite <- rsum_scal. apply rsum_ext. intros. ring. Qed.

(** The two gradients as sums *)
Lemma lf_grad_sums dim u1 u2 nor eval2 nd2 g1 g2 v1 v2 d : lf_grad dim u1 u2 nor eval2 nd2 = Some (g1, g2) -> (d < dim)%nat -> (nd2 = false -> v2 = fun _ => 0) ->
  (eval2 = false -> nd2 = false) ->
  rsum dim (fun e => g1 d e * v1 e) + rsum dim (fun e => g2 d e * v2 e) =
  if eval2 then
    let un := Rmax (mag dim u1) (mag dim u2) * mag dim nor in
    1 / 2 * (inner dim nor u1 * v1 d + u1 d * inner dim nor v1 + (inner dim nor u2 * v2 d + u2 d * inner dim nor v2)) + un * (v1 d - v2 d)
    + (if Rle_dec (mag dim u2) (mag dim u1) then mag dim nor / mag dim u1 * (u1 d - u2 d) * inner dim u1 v1
       else if nd2 then mag dim nor / mag dim u2 * (u1 d - u2 d) * inner dim u2 v2 else 0)
  else inner dim nor u1 * v1 d + u1 d * inner dim nor v1.
Proof.
  intros H Hd Hv Hn. unfold lf_grad in H. cbn zeta in H. unfold mag. destruct eval2; cbn [negb] in H.
  2:{ rewrite (Hn eq_refl) in Hv. rewrite (Hv eq_refl). injection H as <- <-.
      rewrite (rsum_ext dim (fun e => zero_m d e * 0) (fun _ => 0)) by (intros; ring). rewrite rsum_zero, Rplus_0_r.
      rewrite <- (sum_rank1 dim d (inner dim nor u1) nor v1 (u1 d) Hd). apply rsum_ext. intros e _. unfold add_vwt, zero_m. destruct (d =? e)%nat; ring. }
  cbn zeta. set (un := Rmax _ _ * _) in *. set (nm := sqrt (inner dim nor nor)) in *.
  set (m1 := sqrt (inner dim u1 u1)) in *. set (m2 := sqrt (inner dim u2 u2)) in *.
  assert (S1 : forall b, rsum dim (fun e => ((if (d =? e)%nat then 1 / 2 * inner dim nor u1 + un else 0) + u1 d * (scale (1 / 2) nor) e + b * u1 e) * v1 e) =
    1 / 2 * (inner dim nor u1 * v1 d + u1 d * inner dim nor v1) + un * v1 d + b * inner dim u1 v1).
  { intros b. rewrite sum_rank2, inner_scale by auto. field. }
  assert (S2 : forall b, rsum dim (fun e => ((if (d =? e)%nat then 1 / 2 * inner dim nor u2 - un else 0) + u2 d * (scale (1 / 2) nor) e + b * u2 e) * v2 e) =
    1 / 2 * (inner dim nor u2 * v2 d + u2 d * inner dim nor v2) - un * v2 d + b * inner dim u2 v2).
  { intros b. rewrite sum_rank2, inner_scale by auto. field. }
  rewrite !inner_scale in H.
  assert (Z : nd2 = false -> 1 / 2 * (inner dim nor u2 * v2 d + u2 d * inner dim nor v2) - un * v2 d = 0).
  { intros E. rewrite (Hv E). replace (inner dim nor (fun _ => 0)) with 0; [ring|].
    unfold inner. rewrite (rsum_ext dim _ (fun _ => 0)) by (intros; ring). rewrite rsum_zero. reflexivity. }
  assert (Z' : nd2 = false -> rsum dim (fun e => zero_m d e * v2 e) = 0).
  { intros _. rewrite (rsum_ext dim _ (fun _ => 0)) by (intros; unfold zero_m; ring). apply rsum_zero. }
  destruct (Rle_dec m2 m1) as [L|L]; cbn [negb] in H.
  - rewrite Bool.andb_false_r in H. destruct (Req_EM_T m1 0) as [|N]; [discriminate|]. injection H as <- <-.
    transitivity ((1 / 2 * (inner dim nor u1 * v1 d + u1 d * inner dim nor v1) + un * v1 d + nm / m1 * (u1 d - u2 d) * inner dim u1 v1) +
      (1 / 2 * (inner dim nor u2 * v2 d + u2 d * inner dim nor v2) - un * v2 d + 0 * inner dim u2 v2)); [f_equal|ring].
    + rewrite <- S1. apply rsum_ext. intros e _. unfold add_vwt, zero_m, scale. destruct (d =? e)%nat; ring.
    + destruct nd2.
      * rewrite <- S2. apply rsum_ext. intros e _. unfold add_vwt, zero_m, scale. destruct (d =? e)%nat; ring.
      * rewrite Z, Z' by reflexivity. ring.
  - rewrite Bool.andb_true_r in H. destruct nd2; cbn [negb] in H.
    + destruct (Req_EM_T m2 0) as [|N]; [discriminate|]. injection H as <- <-.
      transitivity ((1 / 2 * (inner dim nor u1 * v1 d + u1 d * inner dim nor v1) + un * v1 d + 0 * inner dim u1 v1) +
        (1 / 2 * (inner dim nor u2 * v2 d + u2 d * inner dim nor v2) - un * v2 d + nm / m2 * (u1 d - u2 d) * inner dim u2 v2)); [f_equal|ring].
      * rewrite <- S1. apply rsum_ext. intros e _. unfold add_vwt, zero_m, scale. destruct (d =? e)%nat; ring.
      * rewrite <- S2. apply rsum_ext. intros e _. unfold add_vwt, zero_m, scale. destruct (d =? e)%nat; ring.
    + injection H as <- <-.
      transitivity ((1 / 2 * (inner dim nor u1 * v1 d + u1 d * inner dim nor v1) + un * v1 d + 0 * inner dim u1 v1) +
        (1 / 2 * (inner dim nor u2 * v2 d + u2 d * inner dim nor v2) - un * v2 d)); [f_equal|ring].
      * rewrite <- S1. apply rsum_ext. intros e _. unfold add_vwt, zero_m, scale. destruct (d =? e)%nat; ring.
      * rewrite Z, Z' by reflexivity. reflexivity.
Qed.

(** The gradients the code computes are the derivative of the flux *)
Lemma lf_flux_derivative dim u1 u2 v1 v2 nor eval2 nd2 g1 g2 d : lf_grad dim u1 u2 nor eval2 nd2 = Some (g1, g2) -> (d < dim)%nat ->
  (nd2 = false -> v2 = fun _ => 0) -> (eval2 = false -> nd2 = false) -> (eval2 = true -> smooth_at dim u1 u2) ->
  derivable_pt_lim (fun t => lf_flux dim (line u1 v1 t) (line u2 v2 t) nor eval2 d) 0
    (rsum dim (fun e => g1 d e * v1 e) + rsum dim (fun e => g2 d e * v2 e)).
Proof.
  intros H Hd Hv Hn Hs. rewrite (lf_grad_sums _ _ _ _ _ _ _ _ _ _ _ H Hd Hv Hn). clear H g1 g2.
  destruct eval2.
  2:{ apply (derivative_ext (fun t => inner dim nor (line u1 v1 t) * line u1 v1 t d)); [intros; reflexivity|].
      apply (quadratic_derivative _ (inner dim nor u1 * u1 d) _ (inner dim nor v1 * v1 d)). intros t. unfold line. rewrite inner_lin. ring. }
  specialize (Hs eq_refl). clear Hn. cbn zeta.
  apply (derivative_ext (fun t => 1 / 2 * (inner dim nor (line u1 v1 t) * line u1 v1 t d + inner dim nor (line u2 v2 t) * line u2 v2 t d) +
    Rmax (mag dim (line u1 v1 t)) (mag dim (line u2 v2 t)) * (mag dim nor * (line u1 v1 t d - line u2 v2 t d)))).
  { intros t. rewrite lf_flux_two. unfold lax, speed, mag. change (vdot dim) with (inner dim). ring. }
  set (un := Rmax (mag dim u1) (mag dim u2)). set (nm := mag dim nor). rewrite Rplus_assoc.
  apply (derivable_pt_lim_plus (fun t => 1 / 2 * (inner dim nor (line u1 v1 t) * line u1 v1 t d + inner dim nor (line u2 v2 t) * line u2 v2 t d))
    (fun t => Rmax (mag dim (line u1 v1 t)) (mag dim (line u2 v2 t)) * (nm * (line u1 v1 t d - line u2 v2 t d)))).
  { apply (quadratic_derivative _ (1 / 2 * (inner dim nor u1 * u1 d + inner dim nor u2 * u2 d)) _ (1 / 2 * (inner dim nor v1 * v1 d + inner dim nor v2 * v2 d))).
    intros t. unfold line. rewrite !inner_lin. ring. }
  assert (Q : derivable_pt_lim (fun t => nm * (line u1 v1 t d - line u2 v2 t d)) 0 (nm * (v1 d - v2 d))).
  { apply (quadratic_derivative _ (nm * (u1 d - u2 d)) _ 0). intros t. unfold line. ring. }
  destruct Hs as [Hs|(Hs & Hz)]; unfold speed in *; change (vdot dim) with (inner dim) in *.
  - destruct (Rle_dec (mag dim u2) (mag dim u1)) as [L|L].
    + assert (Lt : mag dim u2 < mag dim u1) by (unfold mag in *; lra).
      assert (N : mag dim u1 <> 0) by (pose proof (sqrt_pos (inner dim u2 u2)); unfold mag in *; lra).
      apply (derivative_local _ (fun t => mag dim (line u1 v1 t) * (nm * (line u1 v1 t d - line u2 v2 t d)))).
      * destruct (max_left _ _ (mag_continuous dim u1 v1) (mag_continuous dim u2 v2)) as (dl & P & E); [rewrite !line_0; auto|].
        exists dl. split; auto. intros t Ht. rewrite (E t Ht). reflexivity.
      * pose proof (derivable_pt_lim_mult _ _ _ _ _ (mag_derivative dim u1 v1 N) Q) as E. cbv beta in E. rewrite !line_0 in E.
        unfold un. rewrite Rmax_left by lra.
        replace (mag dim u1 * nm * (v1 d - v2 d) + nm / mag dim u1 * (u1 d - u2 d) * inner dim u1 v1)
          with (inner dim u1 v1 / mag dim u1 * (nm * (u1 d - u2 d)) + mag dim u1 * (nm * (v1 d - v2 d))) by (field; auto).
        exact E.
    + assert (Lt : mag dim u1 < mag dim u2) by lra.
      assert (N : mag dim u2 <> 0) by (pose proof (sqrt_pos (inner dim u1 u1)); unfold mag in *; lra).
      apply (derivative_local _ (fun t => mag dim (line u2 v2 t) * (nm * (line u1 v1 t d - line u2 v2 t d)))).
      * destruct (max_left _ _ (mag_continuous dim u2 v2) (mag_continuous dim u1 v1)) as (dl & P & E); [rewrite !line_0; auto|].
        exists dl. split; auto. intros t Ht. rewrite Rmax_comm, (E t Ht). reflexivity.
      * pose proof (derivable_pt_lim_mult _ _ _ _ _ (mag_derivative dim u2 v2 N) Q) as E. cbv beta in E. rewrite !line_0 in E.
        unfold un. rewrite Rmax_right by lra.
        replace (mag dim u2 * nm * (v1 d - v2 d) + (if nd2 then nm / mag dim u2 * (u1 d - u2 d) * inner dim u2 v2 else 0))
          with (inner dim u2 v2 / mag dim u2 * (nm * (u1 d - u2 d)) + mag dim u2 * (nm * (v1 d - v2 d))); [exact E|].
        destruct nd2; [field; auto|]. rewrite (Hv eq_refl).
        replace (inner dim u2 (fun _ => 0)) with 0; [field; auto|]. unfold inner. rewrite (rsum_ext dim _ (fun _ => 0)) by (intros; ring). rewrite rsum_zero. reflexivity.
  - apply (derivative_ext (fun t => Rmax (mag dim (line u1 v1 t)) (mag dim (line u2 v2 t)) * (t * (nm * (v1 d - v2 d))))).
    { intros t. f_equal. unfold line. rewrite (Hs d Hd). ring. }
    pose proof (vanishing_product _ (nm * (v1 d - v2 d)) (max_continuous _ _ (mag_continuous dim u1 v1) (mag_continuous dim u2 v2))) as E.
    cbv beta in E. rewrite !line_0 in E. fold un in E.
    match goal with |- derivable_pt_lim _ _ ?l => replace l with (un * (nm * (v1 d - v2 d))); [exact E|] end.
    rewrite (Hs d Hd). unfold Rminus. rewrite Rplus_opp_r. destruct (Rle_dec _ _), nd2; ring.
Qed.
