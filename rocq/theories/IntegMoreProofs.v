(** Sums over quadrature points; conditions in terms of fields; the zero state. *)
From Coq Require Import Reals List Bool Lia Arith Lra FunctionalExtensionality.
From Verif Require Import LaBase IntegModel EqpSpec IntegSpec IntegProofs IntegDomProofs IntegDom2Proofs IntegFaceProofs IntegLaxProofs IntegLax2Proofs IntegQuadProofs.
Import ListNotations.
Local Open Scope R_scope.

Lemma smooth_face_ok nd1 nd2 dim ud rule x old : smooth_face nd1 nd2 dim ud rule x -> lf_smooth nd1 nd2 dim ud old rule x (fun i => x (nd1 * dim + i)%nat).
Proof.
  intros H p Hp E. specialize (H p Hp). unfold at_side, other, has2 in *. cbn [szs fs] in *. rewrite <- (field_shift_f (nd1 * dim)).
  destruct (nd2 =? 0)%nat; cbn in *; [rewrite E in *|]; exact H.
Qed.
Lemma smooth_itf_ok nd1 nd2 dim ud rule x1 x2 old : nd2 <> 0%nat -> smooth_itf nd1 nd2 dim rule x1 x2 -> lf_smooth nd1 nd2 dim ud old rule x1 x2.
Proof. intros N H p Hp _. unfold at_side, other. destruct (Nat.eqb_spec nd2 0); [contradiction|]. apply H; auto. Qed.

(** The vector of a rule is the sum of the vectors of its points *)
Lemma side_value_sum {P} nd1 nd2 (rule : list P) s phi a x1 x2 k d :
  side_value nd1 nd2 rule s phi a x1 x2 k d = lsum (fun p => side_value nd1 nd2 [p] s phi a x1 x2 k d) rule.
Proof. unfold side_value. apply lsum_ext_in. intros p _. rewrite lsum_cons. symmetry. apply Rplus_0_r. Qed.

Lemma lf_face_rule nd1 nd2 dim ud rule x old i : (i < nd1 * dim + nd2 * dim)%nat ->
  lf_face_vector nd1 nd2 dim ud rule x old i = lsum (fun p => lf_face_qvector nd1 nd2 dim ud p (f_w p) x old i) rule.
Proof.
  intros Hi. destruct (side_pos nd1 nd2 dim i Hi) as (a & k & d & Hd & Hk & ->).
  pose proof (lf_face_at nd1 nd2 dim ud old f_w rule x a k d Hd Hk) as E. etransitivity; [exact E|]. clear E. rewrite side_value_sum.
  apply lsum_ext_in. intros p _. symmetry. apply (lf_face_at nd1 nd2 dim ud old f_w [p] x a k d Hd Hk).
Qed.
Lemma lf_itf_rule nd1 nd2 dim ud rule x1 x2 old :
  (forall i, (i < nd1 * dim)%nat -> fst (lf_itf_vector nd1 nd2 dim ud rule x1 x2 old) i = lsum (fun p => fst (lf_itf_qvector nd1 nd2 dim ud p (f_w p) x1 x2 old) i) rule) /\
  (forall i, (i < nd2 * dim)%nat -> snd (lf_itf_vector nd1 nd2 dim ud rule x1 x2 old) i = lsum (fun p => snd (lf_itf_qvector nd1 nd2 dim ud p (f_w p) x1 x2 old) i) rule).
Proof.
  split; intros i Hi.
  - destruct (grid_index nd1 dim i Hi) as (k & d & Hk & Hd & ->).
    etransitivity; [apply (proj1 (lf_itf_at nd1 nd2 dim ud f_w rule x1 x2 old) k d Hk)|]. rewrite side_value_sum. apply lsum_ext_in. intros p _.
    symmetry. apply (proj1 (lf_itf_at nd1 nd2 dim ud f_w [p] x1 x2 old) k d Hk).
  - destruct (grid_index nd2 dim i Hi) as (k & d & Hk & Hd & ->).
    etransitivity; [apply (proj2 (lf_itf_at nd1 nd2 dim ud f_w rule x1 x2 old) k d Hk)|]. rewrite side_value_sum. apply lsum_ext_in. intros p _.
    symmetry. apply (proj2 (lf_itf_at nd1 nd2 dim ud f_w [p] x1 x2 old) k d Hk).
Qed.

Definition num (o : option fm) : fm := match o with Some J => J | None => zero_m end.
Lemma fold_opt_each {A S} (f : A -> S -> option S) l : forall s s', fold_opt f l s = Some s' -> forall a, In a l -> exists s1 s2, f a s1 = Some s2.
Proof.
  unfold fold_opt. induction l as [|b l IH]; intros s s' E a Ha; [contradiction|]. cbn in E. destruct (f b s) as [s1|] eqn:Eb.
  - destruct Ha as [->|Ha]; [exists s, s1; auto|]. eapply IH; eauto.
  - exfalso. clear - E. assert (N : forall l, fold_left (fun s a => match s with Some s => f a s | None => None end) l None = None) by (induction l0; auto).
    rewrite N in E. discriminate.
Qed.
(** Whether the contribution of a point is a number does not depend on the matrix it is added to *)
Lemma lf_face_gpoint_some nd1 nd2 dim ud p iw x old M M1 M' : lf_face_gpoint nd1 nd2 dim ud p iw x old M = Some M1 ->
  exists M2, lf_face_gpoint nd1 nd2 dim ud p iw x old M' = Some M2.
Proof. unfold lf_face_gpoint. destruct (lf_gbase _ _ _ _ _ _ _ _ _) as [[[w g1] g2]|]; [eauto|discriminate]. Qed.

Lemma lf_face_rule_grad nd1 nd2 dim ud rule x old J : lf_face_grad nd1 nd2 dim ud rule x old = Some J ->
  forall i j, (i < nd1 * dim + nd2 * dim)%nat -> (j < nd1 * dim + nd2 * dim)%nat ->
  exists Js, (forall p, In p rule -> lf_face_qgrad nd1 nd2 dim ud p (f_w p) x old = Some (Js p)) /\ J i j = lsum (fun p => Js p i j) rule.
Proof.
  intros E i j Hi Hj. exists (fun p => num (lf_face_qgrad nd1 nd2 dim ud p (f_w p) x old)).
  assert (S : forall p, In p rule -> exists M, lf_face_qgrad nd1 nd2 dim ud p (f_w p) x old = Some M).
  { intros p Hp. destruct (fold_opt_each _ _ _ _ E p Hp) as (s1 & s2 & Es). exact (lf_face_gpoint_some _ _ _ _ _ _ _ _ _ _ zero_m Es). }
  split; [intros p Hp; destruct (S p Hp) as (M & EM); rewrite EM; reflexivity|].
  destruct (side_pos nd1 nd2 dim i Hi) as (a & k & d & Hd & Hk & ->). destruct (side_pos nd1 nd2 dim j Hj) as (b & m & e & He & Hm & ->).
  rewrite (lf_face_grad_at nd1 nd2 dim ud f_w rule x old J a b k d m e Hd He Hk Hm E). unfold side_grad. apply lsum_ext_in. intros p Hp.
  destruct (S p Hp) as (M & EM). rewrite EM. cbn [num].
  rewrite (lf_gpoint_at nd1 nd2 dim ud p (f_w p) x old zero_m M a b k d m e Hd He Hk Hm EM). unfold zero_m at 1. rewrite Rplus_0_l. reflexivity.
Qed.

(** ** The zero state *)
Lemma lf_none nd1 nd2 dim ud rule old (wt : fpt -> R) : nd2 <> 0%nat -> rule <> [] ->
  lf_itf_gsum nd1 nd2 dim ud wt rule (fun _ => 0) (fun _ => 0) old = None.
Proof.
  intros N R. destruct (lf_itf_gsum nd1 nd2 dim ud wt rule (fun _ => 0) (fun _ => 0) old) as [J|] eqn:E; auto. exfalso.
  destruct rule as [|p l]; [congruence|]. destruct (fold_opt_each _ _ _ _ E p (or_introl eq_refl)) as (s1 & s2 & Es).
  unfold lf_itf_gpoint, lf_gbase in Es. rewrite lf_u2_other in Es. unfold other in Es. destruct (Nat.eqb_spec nd2 0); [contradiction|]. cbn [negb orb] in Es.
  rewrite lf_grad_zero in Es; [discriminate| |]; intros d _; unfold mult_t, view; rewrite (rsum_ext _ _ (fun _ => 0)); try apply rsum_zero; intros; ring.
Qed.

Lemma lf_zero_jacobian nd1 nd2 dim ud rule old wt : nd2 <> 0%nat ->
  is_jacobian2 (nd1 * dim) (nd2 * dim) (fun y1 y2 => lf_itf_sum nd1 nd2 dim ud wt rule y1 y2 old) zero_ms (fun _ => 0) (fun _ => 0).
Proof.
  intros N. apply (itf_jacobian nd1 nd2 dim rule fs (lf_phi nd2 dim ud old wt) (fun _ _ _ => zero_m)).
  - intros. apply lf_itf_at; auto.
  - intros. apply lf_itf_at; auto.
  - intros a b k d m e _ _ _ _. unfold side_grad. transitivity 0; [destruct a, b; reflexivity|]. symmetry. apply lsum_0. intros; unfold zero_m; ring.
  - intros a p v1 v2 d Hp Hd _ _.
    assert (Z : forall b, at_side nd1 nd2 fs b (fun _ => 0) (fun _ => 0) p = fun _ => 0).
    { intros b. apply functional_extensionality. intros e. unfold at_side, field. rewrite (rsum_ext _ _ (fun _ => 0)); [apply rsum_zero|intros; destruct b; ring]. }
    rewrite !Z. unfold zero_m.
    replace (rsum dim (fun e => 0 * v1 e) + rsum dim (fun e => 0 * v2 e)) with ((if a then with_q (f_Q p) (wt p) else - with_q (f_Q p) (wt p)) * 0) by (rewrite !sum_none; ring).
    eapply derivative_ext; [|apply derivative_scal; apply (lax_at_zero dim (f_nor p) v1 v2 d)].
    intros t. unfold lf_phi, other, has2. destruct (Nat.eqb_spec nd2 0); [contradiction|]. cbn [negb orb]. rewrite lf_flux_two. f_equal.
    f_equal; apply functional_extensionality; intros; ring.
Qed.

(** Exchanging the sides *)
Lemma lsum_map_fn {A B} (f : B -> R) (g : A -> B) l : lsum f (map g l) = lsum (fun a => f (g a)) l.
Proof. induction l; [reflexivity|]. cbn [map]. rewrite !lsum_cons, IHl. reflexivity. Qed.
Lemma lf_swap nd1 nd2 dim ud rule u1 u2 old : nd1 <> 0%nat -> nd2 <> 0%nat ->
  let swap p := Fpt (f_w p) (f_s2 p) (f_s1 p) (fun e => - f_nor p e) (f_Q p) (f_UD p) in
  (forall i, (i < nd1 * dim)%nat -> snd (lf_itf_vector nd2 nd1 dim ud (map swap rule) u2 u1 old) i = fst (lf_itf_vector nd1 nd2 dim ud rule u1 u2 old) i) /\
  (forall i, (i < nd2 * dim)%nat -> fst (lf_itf_vector nd2 nd1 dim ud (map swap rule) u2 u1 old) i = snd (lf_itf_vector nd1 nd2 dim ud rule u1 u2 old) i).
Proof.
  intros N1 N2 swap.
  assert (K : forall a k d, side_value nd2 nd1 (map swap rule) fs (lf_phi nd1 dim ud old f_w) (negb a) u2 u1 k d = side_value nd1 nd2 rule fs (lf_phi nd2 dim ud old f_w) a u1 u2 k d).
  { intros a k d. unfold side_value. rewrite lsum_map_fn. apply lsum_ext_in. intros p _. unfold lf_phi, other, has2, at_side.
    destruct (Nat.eqb_spec nd1 0); [contradiction|]. destruct (Nat.eqb_spec nd2 0); [contradiction|]. cbn [negb orb szs fs swap f_s1 f_s2 f_nor f_Q f_w].
    rewrite !lf_flux_two, lax_conservative. destruct a; cbn [negb fs f_s1 f_s2 swap]; ring. }
  split; intros i Hi.
  - destruct (grid_index nd1 dim i Hi) as (k & d & Hk & Hd & ->).
    etransitivity; [apply (proj2 (lf_itf_at nd2 nd1 dim ud f_w (map swap rule) u2 u1 old) k d Hk)|].
    etransitivity; [apply (K false)|]. symmetry. apply (proj1 (lf_itf_at nd1 nd2 dim ud f_w rule u1 u2 old) k d Hk).
  - destruct (grid_index nd2 dim i Hi) as (k & d & Hk & Hd & ->).
    etransitivity; [apply (proj1 (lf_itf_at nd2 nd1 dim ud f_w (map swap rule) u2 u1 old) k d Hk)|].
    etransitivity; [apply (K true)|]. symmetry. apply (proj2 (lf_itf_at nd1 nd2 dim ud f_w rule u1 u2 old) k d Hk).
Qed.
