(** Precomputed coefficients on interfaces. *)
From Coq Require Import Reals List Bool Lia Arith Lra ZArith FunctionalExtensionality.
From Verif Require Import Outcome ListLemmas HdfModel LaBase BlockVec LinalgModel LinalgSpec LinalgProofs CompProofs RomProofs RomOpProofs ItfModel ItfSpec ItfProofs IntegModel
  EqpModel EqpSpec EqpItfModel EqpItfSpec EqpEvalProofs EqpItfProofs
  IntegSpec IntegProofs IntegDomProofs IntegLaxProofs IntegLax2Proofs IntegMoreProofs IntegFastModel IntegFormSpec IntegFastProofs IntegFormProofs IntegFastItfModel.
Import ListNotations.
Local Open Scope R_scope.

Lemma itf_s1 nd1 nd2 p bel1 bel2 d i : pe_s1 (pre_itf nd1 nd2 p bel1 bel2) d i = field 0 nd1 (f_s1 p) (colf bel1 i) d.
Proof. apply view_field. Qed.
Lemma itf_s2 nd1 nd2 p bel1 bel2 d i : pe_s2 (pre_itf nd1 nd2 p bel1 bel2) d i = field 0 nd2 (f_s2 p) (colf bel2 i) d.
Proof. apply view_field. Qed.
Lemma itf_u1 nb nd1 nd2 p bel1 bel2 x : mult nb (pe_s1 (pre_itf nd1 nd2 p bel1 bel2)) x = field 0 nd1 (f_s1 p) (comb nb bel1 x).
Proof. apply functional_extensionality. intros d. rewrite field_comb. unfold mult. apply rsum_ext. intros. rewrite itf_s1. reflexivity. Qed.
Lemma itf_u2 nb nd1 nd2 p bel1 bel2 x : mult nb (pe_s2 (pre_itf nd1 nd2 p bel1 bel2)) x = field 0 nd2 (f_s2 p) (comb nb bel2 x).
Proof. apply functional_extensionality. intros d. rewrite field_comb. unfold mult. apply rsum_ext. intros. rewrite itf_s2. reflexivity. Qed.

Lemma rsum_0 n f : (forall i, (i < n)%nat -> f i = 0) -> rsum n f = 0.
Proof. intros H. rewrite (rsum_ext n f (fun _ => 0)) by auto. apply rsum_zero. Qed.
Lemma tested_zero n f : tested n (fun _ => 0) f = 0.
Proof. unfold tested. apply rsum_0. intros. ring. Qed.
Lemma field_zero o nd s d : field o nd s (fun _ => 0) d = 0.
Proof. unfold field. apply rsum_0. intros. ring. Qed.

Lemma itf_qtested nd1 nd2 dim ud p w v1 v2 u1 u2 old : nd2 <> 0%nat ->
  tested (nd1 * dim) v1 (fst (lf_itf_qvector nd1 nd2 dim ud p w u1 u2 old)) =
    - (w * coef (f_Q p)) * rsum dim (fun d => field 0 nd1 (f_s1 p) v1 d * lax dim (f_nor p) (field 0 nd1 (f_s1 p) u1) (field 0 nd2 (f_s2 p) u2) d) /\
  tested (nd2 * dim) v2 (snd (lf_itf_qvector nd1 nd2 dim ud p w u1 u2 old)) =
    w * coef (f_Q p) * rsum dim (fun d => field 0 nd2 (f_s2 p) v2 d * lax dim (f_nor p) (field 0 nd1 (f_s1 p) u1) (field 0 nd2 (f_s2 p) u2) d).
Proof.
  intros N. change (lf_itf_qvector nd1 nd2 dim ud p w u1 u2 old) with (lf_itf_sum nd1 nd2 dim ud (fun _ => w) [p] u1 u2 old). split.
  - pose proof (lf_itf_weak nd1 nd2 dim ud (fun _ => w) [p] v1 (fun _ => 0) u1 u2 old N) as E. rewrite tested_zero, Rplus_0_r in E. rewrite E. rewrite lsum_cons.
    unfold lsum. cbn [fold_right]. rewrite Rplus_0_r, Ropp_mult_distr_l. f_equal. apply rsum_ext. intros d _. rewrite field_zero. ring.
  - pose proof (lf_itf_weak nd1 nd2 dim ud (fun _ => w) [p] (fun _ => 0) v2 u1 u2 old N) as E. rewrite tested_zero, Rplus_0_l in E. rewrite E. rewrite lsum_cons.
    unfold lsum. cbn [fold_right]. rewrite Rplus_0_r, Ropp_mult_distr_r. f_equal. rewrite <- (Rmult_1_l (rsum dim (fun d => field 0 nd2 (f_s2 p) v2 d * _))).
    transitivity (-1 * rsum dim (fun d => (field 0 nd1 (f_s1 p) (fun _ : nat => 0) d - field 0 nd2 (f_s2 p) v2 d) * lax dim (f_nor p) (field 0 nd1 (f_s1 p) u1) (field 0 nd2 (f_s2 p) u2) d)); [ring|].
    rewrite <- !rsum_scal. apply rsum_ext. intros d _. rewrite field_zero. ring.
Qed.

Lemma lf_fast_itf_ok nb1 nb2 nd1 nd2 dim ud p w bel1 bel2 x1 x2 y1 y2 old : nd2 <> 0%nat ->
  let r := lf_fast_itf nb1 nb2 dim p w (pre_itf nd1 nd2 p bel1 bel2) x1 x2 y1 y2 in
  let q := lf_itf_qvector nd1 nd2 dim ud p w (comb nb1 bel1 x1) (comb nb2 bel2 x2) old in
  forall j, fst r j = y1 j + tested (nd1 * dim) (colf bel1 j) (fst q) /\ snd r j = y2 j + tested (nd2 * dim) (colf bel2 j) (snd q).
Proof.
  intros N r q j. unfold r, q. destruct (itf_qtested nd1 nd2 dim ud p w (colf bel1 j) (colf bel2 j) (comb nb1 bel1 x1) (comb nb2 bel2 x2) old N) as (-> & ->).
  unfold lf_fast_itf. cbn zeta. cbn [fst snd]. rewrite itf_u1, itf_u2, with_q_coef. split; f_equal; f_equal; unfold mult_t; apply rsum_ext; intros d _;
    [rewrite itf_s1|rewrite itf_s2]; rewrite lf_flux_two; reflexivity.
Qed.

Lemma itf_dflux dim p W u1 u2 v1 v2 g1 g2 s : lf_grad dim u1 u2 (f_nor p) true true = Some (g1, g2) -> smooth_at dim u1 u2 ->
  derivable_pt_lim (fun t => W * rsum dim (fun d => s d * lf_flux dim (line u1 v1 t) (line u2 v2 t) (f_nor p) true d)) 0
    (W * rsum dim (fun d => s d * (rsum dim (fun e => g1 d e * v1 e) + rsum dim (fun e => g2 d e * v2 e)))).
Proof.
  intros Eg Sm. apply derivative_scal. apply (derivative_rsum dim (fun d t => s d * lf_flux dim (line u1 v1 t) (line u2 v2 t) (f_nor p) true d)).
  intros d Hd. apply derivative_scal. apply (lf_flux_derivative dim u1 u2 v1 v2 (f_nor p) true true g1 g2 d Eg Hd); auto; discriminate.
Qed.

Lemma rsum_times0 n f : rsum n (fun i => f i * 0) = 0.
Proof. apply rsum_0. intros. ring. Qed.
Lemma line_zero (u : fv) t : (fun k => u k + t * (fun _ : nat => 0) k) = u.
Proof. apply functional_extensionality. intros k. ring. Qed.

Lemma lf_fast_itf_grad_ok nb1 nb2 nd1 nd2 dim ud p w bel1 bel2 x1 x2 jac old : nd2 <> 0%nat ->
  smooth_itf nd1 nd2 dim [p] (comb nb1 bel1 x1) (comb nb2 bel2 x2) ->
  exists G J, lf_itf_qgrad nd1 nd2 dim ud p w (comb nb1 bel1 x1) (comb nb2 bel2 x2) old = Some G /\
    lf_fast_itf_grad nb1 nb2 dim p w (pre_itf nd1 nd2 p bel1 bel2) x1 x2 jac = Some J /\
    (forall i j, (j < nb1)%nat -> m11 J i j = m11 jac i j + rap (nd1 * dim) (nd1 * dim) bel1 (m11 G) bel1 i j) /\
    (forall i j, (j < nb2)%nat -> m12 J i j = m12 jac i j + rap (nd1 * dim) (nd2 * dim) bel1 (m12 G) bel2 i j) /\
    (forall i j, (j < nb1)%nat -> m21 J i j = m21 jac i j + rap (nd2 * dim) (nd1 * dim) bel2 (m21 G) bel1 i j) /\
    (forall i j, (j < nb2)%nat -> m22 J i j = m22 jac i j + rap (nd2 * dim) (nd2 * dim) bel2 (m22 G) bel2 i j).
Proof.
  intros N Hs. set (s := pre_itf nd1 nd2 p bel1 bel2).
  destruct (lf_itf_jacobian nd1 nd2 dim ud (fun _ => w) [p] (comb nb1 bel1 x1) (comb nb2 bel2 x2) old (smooth_itf_ok _ _ _ _ _ _ _ _ N Hs)) as (G & EG & JG).
  exists G. set (u1 := mult nb1 (pe_s1 s) x1). set (u2 := mult nb2 (pe_s2 s) x2).
  assert (Sm : smooth_at dim u1 u2) by (unfold u1, u2, s; rewrite itf_u1, itf_u2; apply Hs; left; auto).
  destruct (lf_grad_some dim u1 u2 (f_nor p) true true (fun _ => Sm)) as ((g1 & g2) & Eg).
  unfold lf_fast_itf_grad. cbn zeta. fold u1 u2. rewrite Eg. set (W := with_q (f_Q p) w). eexists. split; [exact EG|]. split; [reflexivity|]. cbn [m11 m12 m21 m22].
  (* derivatives of the projected vectors, from the matrices and from the flux *)
  set (q := fun y1 y2 => lf_itf_qvector nd1 nd2 dim ud p w y1 y2 old).
  assert (P1 : forall i z1 z2, tested (nd1 * dim) (colf bel1 i) (fst (q (comb nb1 bel1 z1) (comb nb2 bel2 z2))) =
    - W * rsum dim (fun d => pe_s1 s d i * lf_flux dim (mult nb1 (pe_s1 s) z1) (mult nb2 (pe_s2 s) z2) (f_nor p) true d)).
  { intros i z1 z2. destruct (lf_fast_itf_ok nb1 nb2 nd1 nd2 dim ud p w bel1 bel2 z1 z2 (fun _ => 0) (fun _ => 0) old N i) as (E & _). rewrite Rplus_0_l in E. etransitivity; [symmetry; exact E|].
    unfold lf_fast_itf. cbn zeta. cbn [fst]. rewrite Rplus_0_l. reflexivity. }
  assert (P2 : forall i z1 z2, tested (nd2 * dim) (colf bel2 i) (snd (q (comb nb1 bel1 z1) (comb nb2 bel2 z2))) =
    W * rsum dim (fun d => pe_s2 s d i * lf_flux dim (mult nb1 (pe_s1 s) z1) (mult nb2 (pe_s2 s) z2) (f_nor p) true d)).
  { intros i z1 z2. destruct (lf_fast_itf_ok nb1 nb2 nd1 nd2 dim ud p w bel1 bel2 z1 z2 (fun _ => 0) (fun _ => 0) old N i) as (_ & E). rewrite Rplus_0_l in E. etransitivity; [symmetry; exact E|].
    unfold lf_fast_itf. cbn zeta. cbn [snd]. rewrite Rplus_0_l. reflexivity. }
  assert (L1 : forall j t, (j < nb1)%nat -> mult nb1 (pe_s1 s) (fun k => x1 k + t * unit j k) = line u1 (fun d => pe_s1 s d j) t).
  { intros j t Hj. apply functional_extensionality. intros d. rewrite mult_line by auto. reflexivity. }
  assert (L2 : forall j t, (j < nb2)%nat -> mult nb2 (pe_s2 s) (fun k => x2 k + t * unit j k) = line u2 (fun d => pe_s2 s d j) t).
  { intros j t Hj. apply functional_extensionality. intros d. rewrite mult_line by auto. reflexivity. }
  assert (Z1 : forall t, line u1 (fun _ => 0) t = u1) by (intros; apply line_zero).
  assert (Z2 : forall t, line u2 (fun _ => 0) t = u2) by (intros; apply line_zero).
  assert (R1 : forall (sp : nat -> R) (v1 : fv), rsum dim (fun d => sp d * (rsum dim (fun e => g1 d e * v1 e) + rsum dim (fun e => g2 d e * 0))) = rsum dim (fun d => sp d * rsum dim (fun e => g1 d e * v1 e))).
  { intros. apply rsum_ext. intros d _. rewrite rsum_times0. ring. }
  assert (R2 : forall (sp : nat -> R) (v2 : fv), rsum dim (fun d => sp d * (rsum dim (fun e => g1 d e * 0) + rsum dim (fun e => g2 d e * v2 e))) = rsum dim (fun d => sp d * rsum dim (fun e => g2 d e * v2 e))).
  { intros. apply rsum_ext. intros d _. rewrite rsum_times0. ring. }
  unfold add_rtap.
  repeat split; intros i j Hj; f_equal.
  - pose proof (itf_dflux dim p (- W) u1 u2 (fun d => pe_s1 s d j) (fun _ => 0) g1 g2 (fun d => pe_s1 s d i) Eg Sm) as D. rewrite R1 in D.
    eapply uniqueness_limite; [exact D|]. eapply derivative_ext; [intros t; symmetry; rewrite Z2, <- L1 by auto; unfold u2; rewrite <- P1, comb_line by auto; reflexivity|].
    unfold tested, rap. apply (derivative_rsum (nd1 * dim) (fun r t => colf bel1 i r * fst (q (fun r => comb nb1 bel1 x1 r + t * colf bel1 j r) (comb nb2 bel2 x2)) r)). intros r Hr. apply derivative_scal.
    destruct (JG (colf bel1 j) (fun _ => 0)) as (H & _). specialize (H r Hr). rewrite rsum_times0, Rplus_0_r in H. eapply derivative_ext; [|exact H]. intros t. cbv beta. rewrite (line_zero (comb nb2 bel2 x2) t). reflexivity.
  - pose proof (itf_dflux dim p (- W) u1 u2 (fun _ => 0) (fun d => pe_s2 s d j) g1 g2 (fun d => pe_s1 s d i) Eg Sm) as D. rewrite R2 in D.
    eapply uniqueness_limite; [exact D|]. eapply derivative_ext; [intros t; symmetry; rewrite Z1, <- L2 by auto; unfold u1; rewrite <- P1, comb_line by auto; reflexivity|].
    unfold tested, rap. apply (derivative_rsum (nd1 * dim) (fun r t => colf bel1 i r * fst (q (comb nb1 bel1 x1) (fun r => comb nb2 bel2 x2 r + t * colf bel2 j r)) r)). intros r Hr. apply derivative_scal.
    destruct (JG (fun _ => 0) (colf bel2 j)) as (H & _). specialize (H r Hr). rewrite rsum_times0, Rplus_0_l in H. eapply derivative_ext; [|exact H]. intros t. cbv beta. rewrite (line_zero (comb nb1 bel1 x1) t). reflexivity.
  - pose proof (itf_dflux dim p W u1 u2 (fun d => pe_s1 s d j) (fun _ => 0) g1 g2 (fun d => pe_s2 s d i) Eg Sm) as D. rewrite R1 in D.
    eapply uniqueness_limite; [exact D|]. eapply derivative_ext; [intros t; symmetry; rewrite Z2, <- L1 by auto; unfold u2; rewrite <- P2, comb_line by auto; reflexivity|].
    unfold tested, rap. apply (derivative_rsum (nd2 * dim) (fun r t => colf bel2 i r * snd (q (fun r => comb nb1 bel1 x1 r + t * colf bel1 j r) (comb nb2 bel2 x2)) r)). intros r Hr. apply derivative_scal.
    destruct (JG (colf bel1 j) (fun _ => 0)) as (_ & H). specialize (H r Hr). rewrite rsum_times0, Rplus_0_r in H. eapply derivative_ext; [|exact H]. intros t. cbv beta. rewrite (line_zero (comb nb2 bel2 x2) t). reflexivity.
  - pose proof (itf_dflux dim p W u1 u2 (fun _ => 0) (fun d => pe_s2 s d j) g1 g2 (fun d => pe_s2 s d i) Eg Sm) as D. rewrite R2 in D.
    eapply uniqueness_limite; [exact D|]. eapply derivative_ext; [intros t; symmetry; rewrite Z1, <- L2 by auto; unfold u1; rewrite <- P2, comb_line by auto; reflexivity|].
    unfold tested, rap. apply (derivative_rsum (nd2 * dim) (fun r t => colf bel2 i r * snd (q (comb nb1 bel1 x1) (fun r => comb nb2 bel2 x2 r + t * colf bel2 j r)) r)). intros r Hr. apply derivative_scal.
    destruct (JG (fun _ => 0) (colf bel2 j)) as (_ & H). specialize (H r Hr). rewrite rsum_times0, Rplus_0_l in H. eapply derivative_ext; [|exact H]. intros t. cbv beta. rewrite (line_zero (comb nb1 bel1 x1) t). reflexivity.
Qed.

(** ** One port *)
Lemma dot_tab n f v : dot n (tab n f) v = tested n (vnth v) f.
Proof. unfold dot, tested. apply rsum_ext. intros r Hr. rewrite tab_nth by auto. ring. Qed.

Lemma ifast_site dim ud old st s t : nth_error st (Z.to_nat (si_el s)) = Some (Some t) -> isite_of (map (option_map (isite_at dim ud old)) st) s = Some (isite_at dim ud old t).
Proof. intros E. unfold isite_of. apply nth_error_nth. rewrite nth_error_map, E. reflexivity. Qed.

Lemma ifast_sample dim n1 n2 nq ud old st s : ifast_fits dim n1 n2 nq st s -> isample_fits n1 n2 nq (map (option_map (isite_at dim ud old)) st) s.
Proof.
  intros (He & Hq & t & Et & N1 & N2 & D1 & D2 & _). split; auto. split; auto. exists (isite_at dim ud old t). split; [apply ifast_site; auto|].
  assert (K : forall d k, (0 <= d < Z.of_nat k)%Z -> (dofn d < k)%nat) by (intros d k H; unfold dofn; destruct (Z.leb_spec 0 d); lia).
  split; [|split; [auto|split; [auto|split; intros d Hd; [apply (D1 d Hd)|apply (D2 d Hd)]]]].
  split; [intros d Hd; apply K, D1; auto|]. split; [intros d Hd; apply K, D2; auto|]. intros m w x y _ _. cbn [is_quad isite_at fst snd is_d1 is_d2]. split; apply tab_length.
Qed.

Section Port.
  Context (B1 B2 : dmat) (dim m1 m2 nq n1 n2 : nat) (ud : bool) (old : fv) (st : list (option iplace)) (x1 x2 : vec) (n : nat) (size : nat -> nat).
  Context (W1 : dm_wf B1) (W2 : dm_wf B2) (P1 : (0 < dm_w B1)%nat) (P2 : (0 < dm_w B2)%nat) (H1 : (n1 <= dm_h B1)%nat) (H2 : (n2 <= dm_h B2)%nat).
  Context (L1 : List.length x1 = dm_w B1) (L2 : List.length x2 = dm_w B2) (Hm1 : (m1 < n)%nat) (Hm2 : (m2 < n)%nat) (S1 : size m1 = dm_w B1) (S2 : size m2 = dm_w B2).
  Let sites := map (option_map (isite_at dim ud old)) st.

  Definition ipre_good (s : sinfo R) (p : pre) : Prop := forall t, nth_error st (Z.to_nat (si_el s)) = Some (Some t) ->
    let m := Z.to_nat (si_qp s) in
    let r := fun y1 y2 => lf_fast_itf (dm_w B1) (dm_w B2) dim (ip_pts t m) (si_qw s) p (vnth x1) (vnth x2) y1 y2 in
    let f := iform_at (isite_at dim ud old t) m (si_qw s) (lift B1 0 x1) (lift B2 0 x2) in
    (forall y1 y2 j, (j < dm_w B1)%nat -> fst (r y1 y2) j = y1 j + f true (mode B1 0 j)) /\
    (forall y1 y2 j, (j < dm_w B2)%nat -> snd (r y1 y2) j = y2 j + f false (mode B2 0 j)).

  Lemma port_pre_ok l : (forall s, In s l -> ifast_fits dim n1 n2 nq st s) -> exists ps, port_pre B1 B2 nq st l = Ok ps /\ Forall2 ipre_good l ps.
  Proof.
    induction l as [|s l IH]; intros Hf; unfold port_pre; cbn [omap]; [exists []; auto|].
    destruct IH as (ps & E & F); [intros; apply Hf; right; auto|]. unfold port_pre in E.
    pose proof (Hf s (or_introl eq_refl)) as (He & Hq & t & Et & N1 & N2 & D1 & D2 & Z1 & Z2).
    unfold zread at 1. destruct (Z.ltb_spec (si_el s) 0); [lia|]. unfold oread at 1. rewrite Et. cbn [obind]. rewrite int_point_ok by auto. cbn [obind].
    set (pl1 := Place (ip_d1 t) (Face (ip_n1 t) 0 (ip_pts t))). set (pl2 := Place (ip_d2 t) (Face (ip_n2 t) 0 (ip_pts t))).
    assert (F1 : place_fits (NLax false) dim pl1). { split; [cbn; rewrite Z1; lia|]. split; auto. intros d Hd. apply (D1 d Hd). }
    assert (F2 : place_fits (NLax false) dim pl2). { split; [cbn; rewrite Z2; lia|]. split; auto. intros d Hd. apply (D2 d Hd). }
    destruct (basis_elem_ok B1 x1 (NLax false) dim pl1 W1 L1 F1) as (bel1 & Eb1 & V1); [intros d Hd; specialize (D1 d Hd); lia|].
    destruct (basis_elem_ok B2 x2 (NLax false) dim pl2 W2 L2 F2) as (bel2 & Eb2 & V2); [intros d Hd; specialize (D2 d Hd); lia|].
    rw_bind Eb1. rw_bind Eb2. rw_bind E. eexists. split; [reflexivity|]. constructor; auto.
    intros t' Et'. rewrite Et in Et'. injection Et' as <-. cbn zeta.
    pose proof (pre_comb B1 x1 (NLax false) dim pl1 F1 bel1 V1) as C1. pose proof (pre_comb B2 x2 (NLax false) dim pl2 F2 bel2 V2) as C2.
    cbn [pl_pre pl_spot pl1 pl2 pl_dofs] in C1, C2. unfold pl_pre in V1, V2. cbn [pl_pre pl_spot pl1 pl2 pl_dofs] in V1, V2.
    assert (N : ip_n2 t <> 0%nat) by (destruct (ip_d2 t); [congruence|cbn in Z2; lia]).
    set (m := Z.to_nat (si_qp s)). set (w := si_qw s).
    split; intros y1 y2 j Hj.
    - destruct (lf_fast_itf_ok (dm_w B1) (dm_w B2) (ip_n1 t) (ip_n2 t) dim ud (ip_pts t m) w bel1 bel2 (vnth x1) (vnth x2) y1 y2 old N j) as (-> & _). f_equal.
      unfold iform_at. cbn [is_quad isite_at is_d1 is_d2 fst snd]. rewrite dot_tab, Z1, C1, C2. unfold tested. apply rsum_ext. intros r _. unfold colf. rewrite V1 by auto. reflexivity.
    - destruct (lf_fast_itf_ok (dm_w B1) (dm_w B2) (ip_n1 t) (ip_n2 t) dim ud (ip_pts t m) w bel1 bel2 (vnth x1) (vnth x2) y1 y2 old N j) as (_ & ->). f_equal.
      unfold iform_at. cbn [is_quad isite_at is_d1 is_d2 fst snd]. rewrite dot_tab, Z2, C1, C2. unfold tested. apply rsum_ext. intros r _. unfold colf. rewrite V2 by auto. reflexivity.
  Qed.

  Lemma block_set i f b : bv_wf b n size -> (i < n)%nat -> exists b', bv_put b i (tab (size i) f) = Ok b' /\ bv_wf b' n size /\ bv_off b' = bv_off b /\
    forall i' j, (i' < n)%nat -> (j < size i')%nat -> vnth (blk b' i') j = if (i' =? i)%nat then f j else vnth (blk b i') j.
  Proof.
    intros W Hi. destruct (bv_put_ok b n size W i (tab (size i) f)) as (b' & P & W' & O' & E1 & E2); auto; [apply tab_length|].
    exists b'. repeat (split; [auto; fail|]). intros i' j Hi' Hj. destruct (Nat.eqb_spec i' i) as [->|N]; [rewrite E1; apply tab_nth; auto|rewrite E2 by auto; reflexivity].
  Qed.

  Theorem port_fast_ok l y : bv_wf y n size -> (forall s, In s l -> ifast_fits dim n1 n2 nq st s) ->
    exists ps y', port_pre B1 B2 nq st l = Ok ps /\ port_fast dim (dm_w B1) (dm_w B2) m1 m2 nq st x1 x2 l ps y = Ok y' /\
      port_mult B1 B2 0 0 m1 m2 nq sites x1 x2 l y = Ok y'.
  Proof.
    intros Wy Hf. destruct (port_pre_ok l Hf) as (ps & Ep & F). exists ps.
    destruct (port_mult_ok B1 B2 0 0 m1 m2 nq n1 n2 sites x1 x2 n size) with (l := l) (y := y) as (z & Ez & Wz & Oz & Vz); auto; [intros; apply ifast_sample; auto|].
    exists z. split; auto. split; auto. unfold port_fast.
    match goal with |- context[ofold ?f _ _] =>
      destruct (ofor_inv (List.length l) f (fun i (c : Z * option (option iplace) * bvec) => let '(prev, tr, b) := c in bv_wf b n size /\ bv_off b = bv_off y /\
         ((prev = (-1)%Z /\ tr = None) \/ ((0 <= prev)%Z /\ exists t, nth_error st (Z.to_nat prev) = Some (Some t) /\ tr = Some (Some t))) /\
         forall i' j, (i' < n)%nat -> (j < size i')%nat -> vnth (blk b i') j = vnth (blk y i') j + lsum (port_at B1 B2 0 0 m1 m2 sites x1 x2 i' j) (firstn i l))
        ((-1)%Z, None, y)) as (((p', c'), y') & E & I1 & I2 & _ & V) end.
    - split; auto. split; auto. split; [left; auto|]. intros. cbn. ring.
    - intros i ((prev, tr), b) Hi (Wb & Ob & C & V). apply Forall2_nth_error in F. destruct F as (FL & F).
      destruct (nth_error l i) as [s|] eqn:Es; [|apply nth_error_None in Es; lia]. destruct (nth_error ps i) as [p|] eqn:Eps; [|apply nth_error_None in Eps; lia].
      pose proof (F _ _ _ Es Eps) as Hg. pose proof (Hf s (nth_error_In _ _ Es)) as Fs. pose proof Fs as (He & Hq & t & Et & _).
      unfold oread at 1. rewrite Es. cbn [obind].
      assert (Er : (if (si_el s =? prev)%Z then match tr with Some t0 => Ok t0 | None => UB end else zread st (si_el s)) = Ok (Some t)).
      { destruct (Z.eqb_spec (si_el s) prev) as [Q|Q].
        - destruct C as [(C & _)|(C & t' & C1 & ->)]; [lia|]. rewrite <- Q in C1. rewrite Et in C1. injection C1 as <-. reflexivity.
        - unfold zread. destruct (Z.ltb_spec (si_el s) 0); [lia|]. unfold oread. rewrite Et. reflexivity. }
      rewrite Er. cbn [obind]. unfold oread at 1. rewrite Eps. cbn [obind]. rewrite int_point_ok by auto. cbn [obind].
      destruct (Hg t Et) as (G1 & G2). cbn zeta in G1, G2.
      pose proof (bv_get_ok b n size Wb m1 Hm1) as A1. rw_bind A1.
      set (f1 := fst (lf_fast_itf (dm_w B1) (dm_w B2) dim (ip_pts t (Z.to_nat (si_qp s))) (si_qw s) p (vnth x1) (vnth x2) (vnth (blk b m1)) (fun _ => 0))).
      destruct (block_set m1 f1 b Wb Hm1) as (b1 & A2 & Wb1 & Ob1 & V1). rewrite S1 in A2. rw_bind A2.
      pose proof (bv_get_ok b1 n size Wb1 m2 Hm2) as A3. rw_bind A3.
      set (f2 := snd (lf_fast_itf (dm_w B1) (dm_w B2) dim (ip_pts t (Z.to_nat (si_qp s))) (si_qw s) p (vnth x1) (vnth x2) (fun _ => 0) (vnth (blk b1 m2)))).
      destruct (block_set m2 f2 b1 Wb1 Hm2) as (b2 & A4 & Wb2 & Ob2 & V2). rewrite S2 in A4. rw_bind A4.
      eexists. split; [reflexivity|]. cbn beta iota. split; auto. split; [congruence|]. split; [right; split; auto; exists t; auto|].
      intros i' j Hi' Hj. rewrite (firstn_next _ _ _ Es), lsum_snoc. unfold port_at at 2. pose proof (ifast_site dim ud old st s t Et) as Eq. fold sites in Eq. rewrite Eq.
      rewrite V2 by auto. destruct (Nat.eqb_spec i' m2) as [E2|E2].
      + subst i'. unfold f2. rewrite G2 by congruence. rewrite V1 by auto. destruct (Nat.eqb_spec m2 m1) as [E1|E1].
        * unfold f1. rewrite E1 in *. rewrite G1 by congruence. rewrite V by congruence. ring.
        * rewrite V by auto. ring.
      + rewrite V1 by auto. destruct (Nat.eqb_spec i' m1) as [E1|E1].
        * subst i'. unfold f1. rewrite G1 by congruence. rewrite V by auto. ring.
        * rewrite V by auto. ring.
    - unfold ofor in E. rw_bind E. f_equal. apply (blk_ext y' z n size); auto; [congruence|]. intros i Hi. apply vec_ext.
      + rewrite !(blk_length _ n size) by auto. reflexivity.
      + intros j Hj. assert (Hj' : (j < size i)%nat) by (rewrite <- (blk_length y' n size I1 i Hi); exact Hj). rewrite V, Vz by auto. rewrite firstn_all. reflexivity.
  Qed.
End Port.
