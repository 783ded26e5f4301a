(** Properties of the linear discontinuous Galerkin integrators. *)
From Coq Require Import Reals List Bool Lia Lra Arith ZArith.
From Verif Require Import Outcome ListLemmas LaBase EqpSpec IntegModel IntegProofs DgModel DgSpec DgAddProofs DgKernelProofs DgItfProofs DgFaceProofs DgRhsProofs DgFormProofs.
Import ListNotations.
Local Open Scope R_scope.

(** ** C105: an interface contributes the blocks that the same face inside of one mesh would have contributed. *)

Theorem C105_vector_diffusion dim nd1 nd2 alpha kappa rule : (0 < nd1)%nat -> (0 < nd2)%nat ->
  (forall p, In p rule -> sd_mu (d_1 p) <> None /\ sd_mu (d_2 p) <> None) ->
  exists m b, vd_face dim nd1 nd2 alpha kappa rule = Ok m /\ ivd_itf dim nd1 nd2 true true alpha kappa rule = Ok b /\
    sized (dim * nd1) (dim * nd2) (dim * nd1) (dim * nd2) b /\ parts (dim * nd1) (dim * nd2) (dim * nd1) (dim * nd2) m b.
Proof. apply ivd_parts. Qed.
Print Assumptions C105_vector_diffusion.

Theorem C105_normal_flux dim tr1 tr2 te1 te2 rule : (0 < tr1)%nat -> (0 < tr2)%nat -> (0 < te2)%nat ->
  exists m b, nf_face dim tr1 tr2 te1 te2 true rule = Ok m /\ inf_itf dim tr1 tr2 te1 te2 true true rule = Ok b /\
    sized te1 te2 (dim * tr1) (dim * tr2) b /\ parts te1 te2 (dim * tr1) (dim * tr2) m b.
Proof. apply inf_parts. Qed.
Print Assumptions C105_normal_flux.

(** The interface is refused when there is no element on the other side, or faces of different shapes meet. *)
Theorem C105_refused dim n1 n2 m1 m2 same alpha kappa rule rule' :
  ivd_itf dim n1 n2 false same alpha kappa rule = Abort /\ inf_itf dim n1 n2 m1 m2 false same rule' = Abort /\
  ivd_itf dim n1 0 true same alpha kappa rule = Abort /\ diff_itf dim n1 0 same alpha kappa rule = Abort /\
  ivd_itf dim n1 n2 true false alpha kappa rule = Abort /\ diff_itf dim n1 n2 false alpha kappa rule = Abort /\
  iel_itf dim n1 n2 false alpha kappa rule = Abort /\ inf_itf dim n1 n2 m1 m2 true false rule' = Abort.
Proof.
  unfold ivd_itf, inf_itf, diff_itf, iel_itf. cbn [andb oassert Nat.ltb Nat.leb].
  repeat split; try reflexivity; match goal with |- (if ?b then _ else _) = _ => destruct b; reflexivity | |- oassert ?b _ = _ => destruct b; reflexivity end.
Qed.
Print Assumptions C105_refused.

(** Without a viscosity (the constructors without a coefficient) the integrators dereference a null pointer. *)
Theorem C105_unit_coefficient_refuted : exists dim nd1 nd2 alpha kappa p rule, (0 < nd1)%nat /\ (0 < nd2)%nat /\
  ivd_itf dim nd1 nd2 true true alpha kappa (p :: rule) = UB /\ vd_face dim nd1 nd2 alpha kappa (p :: rule) = UB /\
  sd_mu (d_1 p) = None /\ sd_mu (d_2 p) = None.
Proof.
  set (s := Side (fun _ => 1) (fun _ _ => 1) (fun _ _ => 1) 1 None None None).
  exists 1%nat, 1%nat, 1%nat, (-1), 2, (DPt 1 (fun _ => 1) s s), []. split; [lia|]. split; [lia|]. split; [reflexivity|]. split; [|auto].
  unfold vd_face. cbv zeta. destruct (Req_EM_T 2 0); reflexivity.
Qed.
Print Assumptions C105_unit_coefficient_refuted.

(** ** C106: the interface blocks are the interior penalty form. *)

Theorem C106_diffusion dim nd1 nd2 sigma kappa rule : (0 < nd2)%nat ->
  (forall p, In p rule -> sd_W (d_1 p) <> 0 /\ sd_W (d_2 p) <> 0) ->
  exists b, diff_itf dim nd1 nd2 true sigma kappa rule = Ok b /\ sized nd1 nd2 nd1 nd2 b /\
    forall u1 u2 v1 v2, form nd1 nd2 nd1 nd2 b u1 u2 v1 v2 = ip_form dim nd1 nd2 sigma kappa rule u1 u2 v1 v2.
Proof.
  intros H W. destruct (diff_itf_entries dim nd1 nd2 sigma kappa rule H) as (b & E & S & I). exists b. split; [auto|]. split; [auto|].
  intros. apply diff_form; auto.
Qed.
Print Assumptions C106_diffusion.

Theorem C106_vector_diffusion dim nd1 nd2 alpha kappa rule : (0 < nd1)%nat -> (0 < nd2)%nat ->
  (forall p, In p rule -> (has_mu (d_1 p) /\ has_mu (d_2 p)) /\ sd_W (d_1 p) <> 0 /\ sd_W (d_2 p) <> 0) ->
  exists b, ivd_itf dim nd1 nd2 true true alpha kappa rule = Ok b /\ sized (dim * nd1) (dim * nd2) (dim * nd1) (dim * nd2) b /\
    forall u1 u2 v1 v2, form (dim * nd1) (dim * nd2) (dim * nd1) (dim * nd2) b u1 u2 v1 v2 =
      rsum dim (fun c => ip_form dim nd1 nd2 alpha kappa rule (comp nd1 c u1) (comp nd2 c u2) (comp nd1 c v1) (comp nd2 c v2)).
Proof.
  intros H1 H2 W. destruct (ivd_itf_entries dim nd1 nd2 alpha kappa rule H1 H2) as (b & E & S & I).
  { intros p Hp. destruct (W p Hp) as ((A & B) & _). split; [apply A|apply B]. }
  exists b. split; [auto|]. split; [auto|]. intros. apply ivd_form; auto.
Qed.
Print Assumptions C106_vector_diffusion.

Theorem C106_elasticity dim nd1 nd2 alpha kappa rule : (0 < nd1)%nat -> (0 < nd2)%nat ->
  (forall p, In p rule -> (has_lame (d_1 p) /\ has_lame (d_2 p)) /\ sd_W (d_1 p) <> 0 /\ sd_W (d_2 p) <> 0) ->
  exists b, iel_itf dim nd1 nd2 true alpha kappa rule = Ok b /\ sized (dim * nd1) (dim * nd2) (dim * nd1) (dim * nd2) b /\
    forall u1 u2 v1 v2, form (dim * nd1) (dim * nd2) (dim * nd1) (dim * nd2) b u1 u2 v1 v2 = lsum (el_point dim nd1 nd2 alpha kappa u1 u2 v1 v2) rule.
Proof.
  intros H1 H2 W. destruct (iel_itf_entries dim nd1 nd2 alpha kappa rule H1 H2) as (b & E & S & I).
  { intros p Hp. apply (W p Hp). }
  exists b. split; [auto|]. split; [auto|]. intros. apply iel_form; auto. intros p Hp. apply (W p Hp).
Qed.
Print Assumptions C106_elasticity.

(** [sigma = -1]: the blocks are those of a symmetric matrix. *)
Theorem C106_symmetric dim nd1 nd2 kappa rule : (0 < nd1)%nat -> (0 < nd2)%nat ->
  (forall b, diff_itf dim nd1 nd2 true (-1) kappa rule = Ok b -> sym_blocks nd1 nd2 b) /\
  (forall b, (forall p, In p rule -> sd_mu (d_1 p) <> None /\ sd_mu (d_2 p) <> None) ->
    ivd_itf dim nd1 nd2 true true (-1) kappa rule = Ok b -> sym_blocks (dim * nd1) (dim * nd2) b) /\
  (forall b, (forall p, In p rule -> has_lame (d_1 p) /\ has_lame (d_2 p)) ->
    iel_itf dim nd1 nd2 true (-1) kappa rule = Ok b -> sym_blocks (dim * nd1) (dim * nd2) b).
Proof.
  intros H1 H2. split; [|split].
  - intros b E. destruct (diff_itf_entries dim nd1 nd2 (-1) kappa rule H2) as (b' & E' & _ & I). rewrite E in E'. injection E' as <-. eapply itf_sym; eauto.
  - intros b M E. destruct (ivd_itf_entries dim nd1 nd2 (-1) kappa rule H1 H2 M) as (b' & E' & _ & I). rewrite E in E'. injection E' as <-. eapply itf_sym; eauto.
  - intros b M E. destruct (iel_itf_entries dim nd1 nd2 (-1) kappa rule H1 H2 M) as (b' & E' & _ & I). rewrite E in E'. injection E' as <-. eapply itf_sym; eauto.
Qed.
Print Assumptions C106_symmetric.

(** [sigma = 1] and a nonnegative penalty: the form is nonnegative. *)
Theorem C106_nonnegative dim nd1 nd2 kappa rule u1 u2 : (0 < nd1)%nat -> (0 < nd2)%nat -> 0 <= kappa -> (forall p, In p rule -> 0 <= d_w p) ->
  (forall b, (forall p, In p rule -> good_side dim (d_nor p) (d_1 p) /\ good_side dim (d_nor p) (d_2 p)) ->
    diff_itf dim nd1 nd2 true 1 kappa rule = Ok b -> 0 <= form nd1 nd2 nd1 nd2 b u1 u2 u1 u2) /\
  (forall b, (forall p, In p rule -> (has_mu (d_1 p) /\ has_mu (d_2 p)) /\ good_side dim (d_nor p) (d_1 p) /\ good_side dim (d_nor p) (d_2 p)) ->
    ivd_itf dim nd1 nd2 true true 1 kappa rule = Ok b -> 0 <= form (dim * nd1) (dim * nd2) (dim * nd1) (dim * nd2) b u1 u2 u1 u2) /\
  (forall b, (forall p, In p rule -> (has_lame (d_1 p) /\ has_lame (d_2 p)) /\ good_lame (d_1 p) /\ good_lame (d_2 p)) ->
    iel_itf dim nd1 nd2 true 1 kappa rule = Ok b -> 0 <= form (dim * nd1) (dim * nd2) (dim * nd1) (dim * nd2) b u1 u2 u1 u2).
Proof.
  intros H1 H2 K W. split; [|split].
  - intros b G E. destruct (C106_diffusion dim nd1 nd2 1 kappa rule H2) as (b' & E' & _ & F).
    { intros p Hp. destruct (G p Hp) as ((A & _) & (B & _)). lra. }
    rewrite E in E'. injection E' as <-. rewrite F. unfold ip_form. apply lsum_nonneg_d. intros p Hp. destruct (G p Hp). apply ip_nonneg; auto. apply pen_nonneg; auto.
  - intros b G E. destruct (C106_vector_diffusion dim nd1 nd2 1 kappa rule H1 H2) as (b' & E' & _ & F).
    { intros p Hp. destruct (G p Hp) as (M & (A & _) & (B & _)). split; [auto|lra]. }
    rewrite E in E'. injection E' as <-. rewrite F. apply rsum_nonneg. intros c _. unfold ip_form. apply lsum_nonneg_d. intros p Hp.
    destruct (G p Hp) as (_ & A & B). apply ip_nonneg; auto. apply pen_nonneg; auto.
  - intros b G E. destruct (C106_elasticity dim nd1 nd2 1 kappa rule H1 H2) as (b' & E' & _ & F).
    { intros p Hp. destruct (G p Hp) as (M & (A & _) & (B & _)). split; [auto|lra]. }
    rewrite E in E'. injection E' as <-. rewrite F. apply lsum_nonneg_d. intros p Hp. destruct (G p Hp) as (_ & A & B). apply el_nonneg; auto. apply epen_nonneg; auto.
Qed.
Print Assumptions C106_nonnegative.

(** A function without a jump only contributes its flux: neither [sigma] nor [kappa] matter. *)
Theorem C106_consistent dim nd1 nd2 sigma kappa rule u1 u2 v1 v2 : (0 < nd1)%nat -> (0 < nd2)%nat ->
  (forall b, (forall p, In p rule -> (sd_W (d_1 p) <> 0 /\ sd_W (d_2 p) <> 0) /\ trace nd1 (d_1 p) u1 = trace nd2 (d_2 p) u2) ->
    diff_itf dim nd1 nd2 true sigma kappa rule = Ok b -> form nd1 nd2 nd1 nd2 b u1 u2 v1 v2 = lsum (fun p => - (d_w p *
      ((flux dim nd1 (d_nor p) (d_1 p) u1 + flux dim nd2 (d_nor p) (d_2 p) u2) / 2 * (trace nd1 (d_1 p) v1 - trace nd2 (d_2 p) v2)))) rule) /\
  (forall b, (forall p, In p rule -> ((has_lame (d_1 p) /\ has_lame (d_2 p)) /\ sd_W (d_1 p) <> 0 /\ sd_W (d_2 p) <> 0) /\
      forall c, (c < dim)%nat -> trace nd1 (d_1 p) (comp nd1 c u1) = trace nd2 (d_2 p) (comp nd2 c u2)) ->
    iel_itf dim nd1 nd2 true sigma kappa rule = Ok b -> form (dim * nd1) (dim * nd2) (dim * nd1) (dim * nd2) b u1 u2 v1 v2 = lsum (fun p => - (d_w p * rsum dim (fun c =>
      (traction dim nd1 (d_nor p) (d_1 p) u1 c + traction dim nd2 (d_nor p) (d_2 p) u2 c) / 2 *
      (trace nd1 (d_1 p) (comp nd1 c v1) - trace nd2 (d_2 p) (comp nd2 c v2))))) rule).
Proof.
  intros H1 H2. split.
  - intros b G E. destruct (C106_diffusion dim nd1 nd2 sigma kappa rule H2) as (b' & E' & _ & F). { intros p Hp. apply (G p Hp). }
    rewrite E in E'. injection E' as <-. rewrite F. apply lsum_ext_in. intros p Hp. destruct (G p Hp) as (_ & T). rewrite ip_alt. unfold jmp at 2 3. rewrite T.
    unfold avg, jmp. ring.
  - intros b G E. destruct (C106_elasticity dim nd1 nd2 sigma kappa rule H1 H2) as (b' & E' & _ & F). { intros p Hp. apply (G p Hp). }
    rewrite E in E'. injection E' as <-. rewrite F. apply lsum_ext_in. intros p Hp. destruct (G p Hp) as (_ & T). rewrite el_alt.
    rewrite Ropp_mult_distr_r. f_equal. transitivity (-1 * rsum dim (fun c => eavg dim nd1 nd2 p u1 u2 c * ejmp nd1 nd2 p v1 v2 c)).
    + rewrite <- rsum_scal. apply rsum_ext. intros c Hc. assert (J : ejmp nd1 nd2 p u1 u2 c = 0) by (unfold ejmp, jmp; rewrite T by auto; ring). rewrite J. ring.
    + unfold eavg, ejmp, jmp. ring.
Qed.
Print Assumptions C106_consistent.

(** The same constant on both sides is not seen. *)
Theorem C106_constants dim nd1 nd2 sigma kappa rule u1 u2 v1 v2 : (0 < nd1)%nat -> (0 < nd2)%nat ->
  (forall p, In p rule -> unity dim nd1 (d_1 p) /\ unity dim nd2 (d_2 p)) ->
  (forall b a, (forall p, In p rule -> sd_W (d_1 p) <> 0 /\ sd_W (d_2 p) <> 0) ->
    (forall i, (i < nd1)%nat -> u1 i = a) -> (forall i, (i < nd2)%nat -> u2 i = a) ->
    diff_itf dim nd1 nd2 true sigma kappa rule = Ok b -> form nd1 nd2 nd1 nd2 b u1 u2 v1 v2 = 0) /\
  (forall b a, (forall p, In p rule -> (has_lame (d_1 p) /\ has_lame (d_2 p)) /\ sd_W (d_1 p) <> 0 /\ sd_W (d_2 p) <> 0) ->
    (forall c i, (c < dim)%nat -> (i < nd1)%nat -> comp nd1 c u1 i = a c) -> (forall c i, (c < dim)%nat -> (i < nd2)%nat -> comp nd2 c u2 i = a c) ->
    iel_itf dim nd1 nd2 true sigma kappa rule = Ok b -> form (dim * nd1) (dim * nd2) (dim * nd1) (dim * nd2) b u1 u2 v1 v2 = 0).
Proof.
  intros H1 H2 U. split.
  - intros b a G A1 A2 E. destruct (C106_diffusion dim nd1 nd2 sigma kappa rule H2 G) as (b' & E' & _ & F).
    rewrite E in E'. injection E' as <-. rewrite F. apply lsum_0. intros p Hp. destruct (U p Hp) as ((P1 & D1) & (P2 & D2)). rewrite ip_alt. unfold jmp at 2 3, avg at 1.
    rewrite (trace_const nd1 (d_1 p) u1 a), (trace_const nd2 (d_2 p) u2 a) by auto.
    rewrite !flux_zero by (eapply slope_const; eauto). unfold Rdiv. ring.
  - intros b a G A1 A2 E. destruct (C106_elasticity dim nd1 nd2 sigma kappa rule H1 H2 G) as (b' & E' & _ & F).
    rewrite E in E'. injection E' as <-. rewrite F. apply lsum_0. intros p Hp. destruct (U p Hp) as ((P1 & D1) & (P2 & D2)). rewrite el_alt.
    rewrite (rsum_ext dim _ (fun _ => 0)), rsum_zero; [ring|]. intros c Hc.
    assert (J : ejmp nd1 nd2 p u1 u2 c = 0).
    { unfold ejmp, jmp. rewrite (trace_const nd1 (d_1 p) (comp nd1 c u1) (a c)), (trace_const nd2 (d_2 p) (comp nd2 c u2) (a c)) by auto. ring. }
    assert (M : eavg dim nd1 nd2 p u1 u2 c = 0).
    { unfold eavg. rewrite !traction_zero; [unfold Rdiv; ring| | | |]; auto; intros l m Hl; eapply slope_const; eauto. }
    rewrite J, M. ring.
Qed.
Print Assumptions C106_constants.

(** It does not matter which of the two components is the first. *)
Theorem C106_either_side dim nd1 nd2 sigma kappa rule u1 u2 v1 v2 : (0 < nd1)%nat -> (0 < nd2)%nat ->
  (forall p, In p rule -> sd_W (d_1 p) <> 0 /\ sd_W (d_2 p) <> 0) ->
  (forall b b', diff_itf dim nd1 nd2 true sigma kappa rule = Ok b -> diff_itf dim nd2 nd1 true sigma kappa (map flip rule) = Ok b' ->
    form nd2 nd1 nd2 nd1 b' u2 u1 v2 v1 = form nd1 nd2 nd1 nd2 b u1 u2 v1 v2) /\
  (forall b b', (forall p, In p rule -> has_mu (d_1 p) /\ has_mu (d_2 p)) ->
    ivd_itf dim nd1 nd2 true true sigma kappa rule = Ok b -> ivd_itf dim nd2 nd1 true true sigma kappa (map flip rule) = Ok b' ->
    form (dim * nd2) (dim * nd1) (dim * nd2) (dim * nd1) b' u2 u1 v2 v1 = form (dim * nd1) (dim * nd2) (dim * nd1) (dim * nd2) b u1 u2 v1 v2) /\
  (forall b b', (forall p, In p rule -> has_lame (d_1 p) /\ has_lame (d_2 p)) ->
    iel_itf dim nd1 nd2 true sigma kappa rule = Ok b -> iel_itf dim nd2 nd1 true sigma kappa (map flip rule) = Ok b' ->
    form (dim * nd2) (dim * nd1) (dim * nd2) (dim * nd1) b' u2 u1 v2 v1 = form (dim * nd1) (dim * nd2) (dim * nd1) (dim * nd2) b u1 u2 v1 v2).
Proof.
  intros H1 H2 W.
  assert (W' : forall p, In p (map flip rule) -> sd_W (d_1 p) <> 0 /\ sd_W (d_2 p) <> 0).
  { intros p Hp. apply in_map_iff in Hp. destruct Hp as (q & <- & Hq). cbn [flip d_1 d_2]. destruct (W q Hq). auto. }
  split; [|split].
  - intros b b' E E'. destruct (C106_diffusion dim nd1 nd2 sigma kappa rule H2 W) as (x & X & _ & F). rewrite E in X. injection X as <-.
    destruct (C106_diffusion dim nd2 nd1 sigma kappa (map flip rule) H1 W') as (y & Y & _ & F'). rewrite E' in Y. injection Y as <-.
    rewrite F, F'. unfold ip_form. rewrite lsum_map_d. apply lsum_ext_in. intros p _. apply ip_flip.
  - intros b b' M E E'. destruct (C106_vector_diffusion dim nd1 nd2 sigma kappa rule H1 H2) as (x & X & _ & F); [auto|]. rewrite E in X. injection X as <-.
    destruct (C106_vector_diffusion dim nd2 nd1 sigma kappa (map flip rule) H2 H1) as (y & Y & _ & F').
    { intros p Hp. split; [|auto]. apply in_map_iff in Hp. destruct Hp as (q & <- & Hq). cbn [flip d_1 d_2]. destruct (M q Hq). auto. }
    rewrite E' in Y. injection Y as <-. rewrite F, F'. apply rsum_ext. intros c _. unfold ip_form. rewrite lsum_map_d. apply lsum_ext_in. intros p _. apply ip_flip.
  - intros b b' M E E'. destruct (C106_elasticity dim nd1 nd2 sigma kappa rule H1 H2) as (x & X & _ & F); [auto|]. rewrite E in X. injection X as <-.
    destruct (C106_elasticity dim nd2 nd1 sigma kappa (map flip rule) H2 H1) as (y & Y & _ & F').
    { intros p Hp. split; [|auto]. apply in_map_iff in Hp. destruct Hp as (q & <- & Hq). cbn [flip d_1 d_2]. destruct (M q Hq). auto. }
    rewrite E' in Y. injection Y as <-. rewrite F, F'. rewrite lsum_map_d. apply lsum_ext_in. intros p _. apply el_flip.
Qed.
Print Assumptions C106_either_side.

(** ** C107: weak Dirichlet conditions are consistent. *)

Theorem C107_matrix dim nd alpha kappa rule : (0 < nd)%nat -> (forall p, In p rule -> has_mu (d_1 p) /\ sd_W (d_1 p) <> 0) ->
  exists m, vd_face dim nd 0 alpha kappa rule = Ok m /\ s_h m = (dim * nd)%nat /\ s_w m = (dim * nd)%nat /\
    forall u v, paired (dim * nd) (dim * nd) m v u = rsum dim (fun c => lsum (nitsche_point dim nd alpha kappa (comp nd c u) (comp nd c v)) rule).
Proof.
  intros Hn W. destruct (vd_face_entries dim nd 0 alpha kappa rule Hn) as (m & E & _).
  { intros p Hp. destruct (W p Hp) as ((M & _) & _). split; [auto|]. intros N. contradiction. }
  exists m. split; [auto|]. destruct (vd_bdr dim nd alpha kappa rule (fun _ => 0) (fun _ => 0) m Hn W E) as (A & B & _). split; [auto|]. split; [auto|].
  intros. apply (vd_bdr dim nd alpha kappa rule u v m Hn W E).
Qed.
Print Assumptions C107_matrix.

Lemma flux_ext dim n nor nor' s x : (forall m, nor m = nor' m) -> flux dim n nor s x = flux dim n nor' s x.
Proof.
  intros H. unfold flux. destruct (sd_mq s).
  - apply rsum_ext. intros l _. apply rsum_ext. intros m _. rewrite H. auto.
  - f_equal. apply rsum_ext. intros m _. rewrite H. auto.
Qed.
Lemma stiff_ext dim nor nor' s : (forall m, nor m = nor' m) -> stiff dim nor s = stiff dim nor' s.
Proof.
  intros H. unfold stiff, sq. destruct (sd_mq s).
  - apply rsum_ext. intros l _. apply rsum_ext. intros m _. rewrite !H. auto.
  - f_equal. apply rsum_ext. intros m _. rewrite H. auto.
Qed.

Lemma lsum_F2 {A B} (P : A -> B -> Prop) f g : forall l l', Forall2 P l l' -> (forall a b, P a b -> f a = g b) -> lsum f l = lsum g l'.
Proof. intros l l' H E. induction H; [auto|]. rewrite !lsum_cons, (E _ _ H), IHForall2. auto. Qed.

(** A function that has the boundary values leaves the residual [-(flux u, v)], whatever [alpha] and [kappa] are. *)
Theorem C107_consistent dim nd alpha kappa rule brule u v : (0 < nd)%nat -> (forall p, In p rule -> has_mu (d_1 p) /\ sd_W (d_1 p) <> 0) ->
  Forall2 (same_point dim (fun p c => trace nd (d_1 p) (comp nd c u))) rule brule ->
  exists m r, vd_face dim nd 0 alpha kappa rule = Ok m /\ vdl_rhs dim nd alpha kappa brule = Ok r /\
    paired (dim * nd) (dim * nd) m v u - against (dim * nd) r v =
    - rsum dim (fun c => lsum (fun p => d_w p * (flux dim nd (d_nor p) (d_1 p) (comp nd c u) * trace nd (d_1 p) (comp nd c v))) rule).
Proof.
  intros Hn W F2. destruct (C107_matrix dim nd alpha kappa rule Hn W) as (m & E & _ & _ & F).
  assert (WB : forall q, In q brule -> has_mu (b_side q) /\ sd_W (b_side q) <> 0).
  { clear - W F2. induction F2 as [|p q rule brule H F2 IH]; intros x Hx; [contradiction|]. destruct Hx as [<-|Hx].
    - destruct H as (_ & -> & _). apply W. simpl. auto.
    - apply IH; auto. intros y Hy. apply W. simpl. auto. }
  destruct (vdl_ok dim nd alpha kappa brule v Hn WB) as (r & E' & _ & _ & G). exists m, r. split; [auto|]. split; [auto|]. rewrite F, G.
  rewrite <- rsum_minus. transitivity (rsum dim (fun c => -1 * lsum (fun p => d_w p * (flux dim nd (d_nor p) (d_1 p) (comp nd c u) * trace nd (d_1 p) (comp nd c v))) rule)).
  2:{ rewrite rsum_scal. ring. }
  apply rsum_ext. intros c Hc.
  match goal with |- _ - ?x = _ => assert (X : x = lsum (fun p => d_w p * trace nd (d_1 p) (comp nd c u) * (alpha * flux dim nd (d_nor p) (d_1 p) (comp nd c v)
    + kappa * (stiff dim (d_nor p) (d_1 p) / sd_W (d_1 p)) * trace nd (d_1 p) (comp nd c v))) rule) end.
  { symmetry. apply (lsum_F2 _ _ _ rule brule F2). intros p q (A & B & C & D). rewrite A, B, D by auto. rewrite (flux_ext dim nd (b_nor q) (d_nor p)), (stiff_ext dim (b_nor q) (d_nor p)) by auto. auto. }
  rewrite X. clear. induction rule as [|p rule IH]; [simpl; ring|]. rewrite !lsum_cons.
  match goal with |- ?a + ?b - (?c0 + ?d) = -1 * (?e + ?f) => assert (a - c0 = -1 * e) by (unfold nitsche_point; ring); assert (b - d = -1 * f) by exact IH; lra end.
Qed.
Print Assumptions C107_consistent.

(** ** C108: the divergence constraint. *)

(** On an interface: mean pressure times the jump of the normal velocity *)
Theorem C108_interface dim tr1 tr2 te1 te2 rule : (0 < tr1)%nat -> (0 < tr2)%nat -> (0 < te2)%nat ->
  exists b, inf_itf dim tr1 tr2 te1 te2 true true rule = Ok b /\ forall u1 u2 q1 q2, form te1 te2 (dim * tr1) (dim * tr2) b u1 u2 q1 q2 =
    lsum (fun p => n_w p * ((nprs te1 (n_te1 p) q1 + nprs te2 (n_te2 p) q2) / 2 *
      rsum dim (fun m => n_nor p m * (nvel tr1 (n_tr1 p) u1 m - nvel tr2 (n_tr2 p) u2 m)))) rule.
Proof.
  intros H1 H2 H3. destruct (inf_itf_entries dim tr1 tr2 te1 te2 rule H1 H2 H3) as (b & E & _ & I00 & I01 & I10 & I11).
  exists b. split; [auto|]. intros. unfold form.
  rewrite (paired_lsum _ _ _ _ _ q1 u1 I00), (paired_lsum _ _ _ _ _ q1 u2 I01), (paired_lsum _ _ _ _ _ q2 u1 I10), (paired_lsum _ _ _ _ _ q2 u2 I11).
  rewrite <- !lsum_add. apply lsum_ext_in. intros p _. rewrite !paired_nfe by auto. unfold nfw. rewrite (proj2 (Nat.eqb_neq tr2 0)) by lia.
  fold (nprs te1 (n_te1 p) q1) (nprs te2 (n_te2 p) q2).
  assert (D : rsum dim (fun m => n_nor p m * (nvel tr1 (n_tr1 p) u1 m - nvel tr2 (n_tr2 p) u2 m)) =
    rsum dim (fun m => n_nor p m * nvel tr1 (n_tr1 p) u1 m) - rsum dim (fun m => n_nor p m * nvel tr2 (n_tr2 p) u2 m)).
  { rewrite <- rsum_minus. apply rsum_ext. intros. ring. }
  rewrite D. unfold nvel. field.
Qed.
Print Assumptions C108_interface.

(** On the boundary: the matrix applied to a velocity is the right-hand side built from the values of the velocity. *)
Theorem C108_boundary dim tr te tr2 te2 rule brule u q : (0 < tr)%nat ->
  Forall2 (fun p b => b_w b = n_w p /\ (forall i, sd_shape (b_side b) i = n_te1 p i) /\ (forall m, b_nor b m = n_nor p m) /\ forall m, (m < dim)%nat -> b_val b m = nvel tr (n_tr1 p) u m) rule brule ->
  exists m r, nf_face dim tr tr2 te te2 false rule = Ok m /\ bn_rhs dim te brule = Ok r /\ s_h m = te /\ s_w m = (dim * tr)%nat /\
    paired te (dim * tr) m q u = against te r q /\
    against te r q = lsum (fun p => n_w p * (nprs te (n_te1 p) q * rsum dim (fun k => n_nor p k * nvel tr (n_tr1 p) u k))) rule.
Proof.
  intros H F2. unfold nf_face. destruct (nf_face_entries dim tr 0 te 0 rule H) as (m & E & A & B & C & _); [auto|].
  destruct (bn_ok dim te brule q) as (r & E' & _ & _ & G). exists m, r. split; [auto|]. split; [auto|]. split; [lia|]. split; [lia|].
  assert (V : against te r q = lsum (fun p => n_w p * (nprs te (n_te1 p) q * rsum dim (fun k => n_nor p k * nvel tr (n_tr1 p) u k))) rule).
  { rewrite G. symmetry. apply (lsum_F2 _ _ _ rule brule F2). intros p b (-> & S & N & V). f_equal. rewrite Rmult_comm. f_equal.
    - unfold inner. apply rsum_ext. intros k Hk. rewrite N, V by auto. ring.
    - unfold nprs, trace. apply rsum_ext. intros. rewrite S. auto. }
  split; [|exact V]. rewrite V. rewrite (paired_lsum _ _ _ _ _ q u C). apply lsum_ext_in. intros p _. rewrite paired_nfe by auto. unfold nfw, nprs, nvel. cbn [Nat.eqb]. ring.
Qed.
Print Assumptions C108_boundary.

(** A given stress acts through its normal component. *)
Theorem C108_stress dim nd rule : (0 < nd)%nat -> exists r, bns_rhs dim nd rule = Ok r /\ s_h r = (dim * nd)%nat /\ s_w r = 1%nat /\
  forall v, against (dim * nd) r v = lsum (fun p => b_w p * rsum dim (fun k => rsum dim (fun l => b_val p (k + l * dim)%nat * b_nor p l) * trace nd (b_side p) (comp nd k v))) rule.
Proof.
  intros H. destruct (bns_ok dim nd rule (fun _ => 0) H) as (r & E & A & B & _). exists r. split; [auto|]. split; [auto|]. split; [auto|]. intros v.
  destruct (bns_ok dim nd rule v H) as (r' & E' & _ & _ & G). rewrite E in E'. injection E' as <-. auto.
Qed.
Print Assumptions C108_stress.

(** ** C109: boundary integrators of a mixed form act on the boundary elements that their markers select, once each. *)

Lemma NoDup_app_d {A} (l l' : list A) : NoDup l -> NoDup l' -> (forall x, In x l -> In x l' -> False) -> NoDup (l ++ l').
Proof.
  induction l as [|a l IH]; intros N N' D; [auto|]. inversion N; subst. simpl. constructor.
  - intros H. apply in_app_or in H. destruct H; [contradiction|]. apply (D a); simpl; auto.
  - apply IH; auto. intros x Hx Hy. apply (D x); simpl; auto.
Qed.

Lemma NoDup_flat {A B} (f : A -> list B) l : NoDup l -> (forall a, In a l -> NoDup (f a)) ->
  (forall a b x, In a l -> In b l -> In x (f a) -> In x (f b) -> a = b) -> NoDup (flat_map f l).
Proof.
  induction l as [|a l IH]; intros N F D; [constructor|]. inversion N; subst. simpl. apply NoDup_app_d.
  - apply F. simpl. auto.
  - apply IH; auto; intros; [apply F; simpl; auto|]. eapply D; simpl; eauto.
  - intros x Hx Hy. apply in_flat_map in Hy. destruct Hy as (b & Hb & Hy). assert (a = b) by (eapply D; simpl; eauto). subst. contradiction.
Qed.

Lemma combine_nodup {A} (l : list A) : forall s, NoDup (combine (seq s (length l)) l).
Proof.
  induction l as [|a l IH]; intros s; [constructor|]. simpl. constructor; auto. intros H. apply in_combine_l in H. apply in_seq in H. lia.
Qed.
Lemma combine_fun {A} (l : list A) : forall s i a b, In (i, a) (combine (seq s (length l)) l) -> In (i, b) (combine (seq s (length l)) l) -> a = b.
Proof.
  induction l as [|x l IH]; intros s i a b; simpl; [tauto|]. intros [H|H] [K|K].
  - congruence.
  - injection H as <- <-. apply in_combine_l in K. apply in_seq in K. lia.
  - injection K as <- <-. apply in_combine_l in H. apply in_seq in H. lia.
  - eauto.
Qed.

Theorem C109_faces nattr marks bdr : Forall (fun mk => match mk with Some l => (nattr <= length l)%nat | None => True end) marks ->
  Forall (fun af => (0 < fst af <= nattr)%nat) bdr ->
  exists l, mb_faces nattr marks bdr = Ok l /\ NoDup l /\
    forall i k, In (i, k) l <-> exists attr mk, nth_error bdr i = Some (attr, true) /\ nth_error marks k = Some mk /\ wants mk attr = true.
Proof.
  intros HM HB. exists (wanted marks bdr). split; [apply mb_faces_ok; auto|]. split; [|intros; apply wanted_iff]. unfold wanted.
  assert (INF : forall (i attr : nat) (face : bool) (x : nat * nat), In x (if face : bool then flat_map (fun '(k, mk) => if wants mk attr then [(i, k)] else []) (combine (seq 0 (length marks)) marks) else []) -> fst x = i).
  { intros i attr face x Hx. destruct face; [|contradiction]. apply in_flat_map in Hx. destruct Hx as ([k mk] & _ & Hx). destruct (wants mk attr); [|contradiction].
    destruct Hx as [<-|[]]. auto. }
  apply NoDup_flat.
  - apply combine_nodup.
  - intros [i [attr face]] _. destruct face; [|constructor]. apply NoDup_flat.
    + apply combine_nodup.
    + intros [k mk] _. destruct (wants mk attr); [|constructor]. constructor; [tauto|constructor].
    + intros [k mk] [k' mk'] x H1 H2 H3 H4. destruct (wants mk attr); [|contradiction]. destruct (wants mk' attr); [|contradiction].
      destruct H3 as [<-|[]]. destruct H4 as [H4|[]]. injection H4 as ->. f_equal. eapply combine_fun; eauto.
  - intros [i [attr face]] [i' [attr' face']] x H1 H2 H3 H4. apply INF in H3. apply INF in H4. subst i. subst i'. f_equal. eapply combine_fun; eauto.
Qed.
Print Assumptions C109_faces.

(** A marker that is too short is read beyond its end (the check is only made by a debug build of MFEM). *)
Theorem C109_short_marker nattr mk rest bdr : (length mk < nattr)%nat -> mb_faces nattr (Some mk :: rest) bdr = UB.
Proof.
  intros H. unfold mb_faces. cbn [mb_marker]. rewrite repeat_length.
  assert (G : forall n, (length mk < n)%nat -> (n <= nattr)%nat -> forall acc, length acc = nattr -> ofor n (fun acc i => let* a := oread acc i in let* b := oread mk i in owrite acc i (Z.lor a b)) acc = UB).
  { induction n as [|n IH]; intros Hn Hle acc HA; [lia|]. unfold ofor. rewrite seq_S, ofold_app. fold (ofor n (fun acc i => let* a := oread acc i in let* b := oread mk i in owrite acc i (Z.lor a b)) acc). cbn [ofold]. destruct (Nat.eq_dec n (length mk)) as [->|D].
    - destruct (ofor_inv (length mk) (fun acc i => let* a := oread acc i in let* b := oread mk i in owrite acc i (Z.lor a b)) (fun _ a => length a = nattr) acc) as (a & E & L); auto.
      + intros i a Hi L. rewrite oread_nth by lia. cbn [obind]. rewrite oread_nth by lia. cbn [obind]. unfold owrite. rewrite (proj2 (Nat.ltb_lt i (length a))) by lia.
        eexists. split; [reflexivity|]. rewrite upd_length. auto.
      + rewrite E. cbn [obind Nat.add]. rewrite oread_nth by lia. cbn [obind]. unfold oread. rewrite (proj2 (nth_error_None mk (length mk))) by lia. auto.
    - rewrite IH by (auto; lia). auto. }
  rewrite G by (auto using repeat_length; lia). auto.
Qed.
Print Assumptions C109_short_marker.

(** ** C110: boundary data of convection scale like an integral over the face. *)

Lemma with_q_scale q s w : with_q q (s * w) = s * with_q q w.
Proof. unfold with_q. destruct q; ring. Qed.
Lemma inner_scale dim g nor s : inner dim g (fun m => s * nor m) = s * inner dim g nor.
Proof. unfold inner. rewrite <- rsum_scal. apply rsum_ext. intros. ring. Qed.

Theorem C110_temam dim nd s rule v : (0 < nd)%nat ->
  exists r r', tl_rhs dim nd rule = Ok r /\ tl_rhs dim nd (map (magnified s) rule) = Ok r' /\
    against (dim * nd) r v = lsum (fun p => with_q (b_Z p) (b_w p) * (inner dim (b_val p) (b_nor p) * rsum dim (fun k => b_val p k * trace nd (b_side p) (comp nd k v)))) rule /\
    against (dim * nd) r' v = s * against (dim * nd) r v.
Proof.
  intros Hn.
  assert (P : forall rl, exists r, tl_rhs dim nd rl = Ok r /\ against (dim * nd) r v =
    lsum (fun p => with_q (b_Z p) (b_w p) * (inner dim (b_val p) (b_nor p) * rsum dim (fun k => b_val p k * trace nd (b_side p) (comp nd k v)))) rl).
  { intros rl. destruct (vwt_ok dim nd (tl_point dim nd) (fun p => with_q (b_Z p) (b_w p)) (fun p => scale (inner dim (b_val p) (b_nor p)) (b_val p)) (fun p => sd_shape (b_side p)) rl v Hn)
      as (r & E & _ & _ & _ & G); [reflexivity|].
    exists r. split; [exact E|]. rewrite G. apply lsum_ext_in. intros p _. f_equal. rewrite <- rsum_scal. apply rsum_ext. intros k _. unfold scale, trace. ring. }
  destruct (P rule) as (r & E & G). destruct (P (map (magnified s) rule)) as (r' & E' & G'). exists r, r'. repeat split; auto.
  rewrite G', G, lsum_map_d. rewrite <- lsum_mul. apply lsum_ext_in. intros p _. cbn [magnified b_Z b_w b_val b_nor b_side]. rewrite inner_scale. ring.
Qed.
Print Assumptions C110_temam.

(** The Lax-Friedrichs data carry the weight of the face although the normal already has its length: they grow with the
    square. *)
Theorem C110_friedrichs_square dim nd s rule v : (0 < nd)%nat -> 0 <= s ->
  exists r r', lfl_rhs dim nd rule = Ok r /\ lfl_rhs dim nd (map (magnified s) rule) = Ok r' /\ against (dim * nd) r' v = s * s * against (dim * nd) r v.
Proof.
  intros Hn Hs.
  assert (P : forall rl, exists r, lfl_rhs dim nd rl = Ok r /\ against (dim * nd) r v =
    lsum (fun p => with_q (b_Z p) (b_w p * b_fw p) * rsum dim (fun k => (1 / 2 * inner dim (b_val p) (b_nor p) * b_val p k + - Rabs (inner dim (b_val p) (b_nor p)) * b_val p k)
      * rsum nd (fun b => sd_shape (b_side p) b * comp nd k v b))) rl).
  { intros rl. destruct (vwt_ok dim nd (lfl_point dim nd) (fun p => with_q (b_Z p) (b_w p * b_fw p))
      (fun p d => 1 / 2 * inner dim (b_val p) (b_nor p) * b_val p d + - Rabs (inner dim (b_val p) (b_nor p)) * b_val p d) (fun p => sd_shape (b_side p)) rl v Hn)
      as (r & E & _ & _ & _ & G); [reflexivity|]. exists r. split; [exact E|exact G]. }
  destruct (P rule) as (r & E & G). destruct (P (map (magnified s) rule)) as (r' & E' & G'). exists r, r'. repeat split; auto.
  rewrite G', G, lsum_map_d. rewrite <- lsum_mul. apply lsum_ext_in. intros p _. cbn [magnified b_Z b_w b_val b_nor b_side b_fw]. rewrite inner_scale, Rabs_mult, (Rabs_right s) by lra.
  replace (b_w p * (s * b_fw p)) with (s * (b_w p * b_fw p)) by ring. rewrite with_q_scale. rewrite <- !rsum_scal. apply rsum_ext. intros k _.
  generalize (rsum nd (fun b => sd_shape (b_side p) b * comp nd k v b)). intros y. ring.
Qed.
Print Assumptions C110_friedrichs_square.

Theorem C110_friedrichs_refuted : exists dim nd s rule r r' v, 0 < s /\ lfl_rhs dim nd rule = Ok r /\ lfl_rhs dim nd (map (magnified s) rule) = Ok r' /\
  against (dim * nd) r' v <> s * against (dim * nd) r v.
Proof.
  set (p := BPt 1 (fun _ => 1) (Side (fun _ => 1) (fun _ _ => 0) (fun _ _ => 1) 1 None None None) (fun _ => 1) 1 None).
  destruct (C110_friedrichs_square 1 1 2 [p] (fun _ => 1)) as (r & r' & E & E' & G); [lia|lra|].
  exists 1%nat, 1%nat, 2, [p], r, r', (fun _ => 1). split; [lra|]. split; [auto|]. split; [auto|]. rewrite G.
  assert (V : against (1 * 1) r (fun _ => 1) = - (1 / 2)).
  { unfold lfl_rhs in E. destruct (vwt_ok 1 1 (lfl_point 1 1) (fun p => with_q (b_Z p) (b_w p * b_fw p))
      (fun p d => 1 / 2 * inner 1 (b_val p) (b_nor p) * b_val p d + - Rabs (inner 1 (b_val p) (b_nor p)) * b_val p d) (fun p => sd_shape (b_side p)) [p] (fun _ => 1))
      as (r0 & E0 & _ & _ & _ & G0); [lia|reflexivity|]. rewrite E in E0. injection E0 as <-. rewrite G0.
    rewrite lsum_cons. unfold p, inner, with_q, comp. cbn [lsum b_Z b_w b_fw b_val b_nor b_side sd_shape rsum fold_right map]. rewrite (Rabs_right (0 + 1 * 1)) by lra. change (lsum _ []) with 0. lra. }
  rewrite V. lra.
Qed.
Print Assumptions C110_friedrichs_refuted.

