(** Concrete cases for precomputed coefficients, and where they differ. *)
From Coq Require Import Reals List Bool Lia Arith Lra ZArith FunctionalExtensionality.
From Verif Require Import Outcome HdfModel LaBase BlockVec LinalgModel LinalgSpec ItfModel ItfSpec EqpModel EqpSpec EqpItfModel EqpItfSpec EqpItfProofs
  IntegModel IntegSpec IntegProofs IntegDomProofs IntegLaxProofs IntegLax2Proofs IntegMoreProofs IntegExamples IntegFastModel IntegFormSpec IntegFastProofs IntegFormProofs IntegFastItfModel IntegFastItfProofs.
Import ListNotations.
Local Open Scope R_scope.

(** An element and a face with four degrees of freedom each, two basis functions *)
Definition eB : dmat := DMat 4 2 [1; 2; 3; 5;  0; 1; -1; 4].
Definition eElem : place := Place [0; 1; 2; 3]%Z (Elem 2 (fun _ => pt0 None) (fun v => v) (fun v => v) (fun m => m)).
Definition eFp : fpt := Fpt 1 (fun _ => 1) (fun _ => 1) (fun _ => 1) (Some 2) (fun _ => 3).
Definition eFace : place := Place [0; 1; 2; 3]%Z (Face 1 1 (fun _ => eFp)).
Definition eConv : fint := FInt NConv (Some 1%nat) [None; Some eElem] [] None (Some [Build_sinfo 1%Z 0%Z 2; Build_sinfo 1%Z 0%Z 7]).
Definition eLax : fint := FInt (NLax true) (Some 1%nat) [Some eFace] [2%Z] (Some [0; 1]%Z) (Some [Build_sinfo 0%Z 0%Z 3]).

Lemma e_dofs d : In d [0; 1; 2; 3]%Z -> (0 <= d)%Z /\ (Z.to_nat d < 4)%nat.
Proof. cbn. intros [<-|[<-|[<-|[<-|[]]]]]; lia. Qed.
Example ex_conv_fits : fint_fits 4 2 eConv.
Proof.
  split; [discriminate|]. eexists. split; [reflexivity|]. intros s Hs.
  assert (E : si_el s = 1%Z /\ si_qp s = 0%Z) by (destruct Hs as [<-|[<-|[]]]; auto). destruct E as (E1 & E2).
  split; [lia|]. split; [|split; [exists 1%nat; split; auto; rewrite E2; lia|exact Logic.I]].
  exists eElem. split; [rewrite E1; reflexivity|]. split; [|intros d Hd; apply (e_dofs d Hd)].
  split; [|split; [discriminate|intros d Hd; apply (e_dofs d Hd)]]. cbn [fi_kind eConv pl_spot eElem]. split; [reflexivity|]. split; [apply transforms_id|].
  intros m. split; [reflexivity|apply ex_geometry].
Qed.
Example ex_lax_fits : fint_fits 4 2 eLax.
Proof.
  split; [discriminate|]. eexists. split; [reflexivity|]. intros s [<-|[]]. split; [cbn; lia|].
  split; [|split; [exists 1%nat; split; auto; cbn; lia|exists 2%Z, 1%Z; cbn; repeat split; try reflexivity; lia]].
  exists eFace. split; [reflexivity|]. split; [|intros d Hd; apply (e_dofs d Hd)].
  split; [reflexivity|split; [discriminate|intros d Hd; apply (e_dofs d Hd)]].
Qed.
Example ex_lax_smooth : fint_smooth 2 eLax (lift eB 0 [1; 1]).
Proof.
  intros l s pl [= <-] [<-|[]] [= <-]. cbn [place_smooth fi_kind eLax pl_spot eFace]. intros p [<-|[]]. cbn [Nat.eqb]. left.
  assert (V : forall i, vnth (on_dofs (lift eB 0 [1; 1]) (pl_dofs eFace)) i = nth i [1; 3; 2; 9] 0).
  { intros i. destruct i as [|[|[|[|i]]]]; [| | | |destruct i; reflexivity]; unfold lift, on_dofs, dofs, dofn, mget, vnth; cbn;
      repeat (progress (change (Pos.to_nat 1) with 1%nat; change (Pos.to_nat 2) with 2%nat; change (Pos.to_nat 3) with 3%nat; cbn)); lra. }
  assert (Q : forall o, speed 2 (field o 1 (fun _ => 1) (vnth (on_dofs (lift eB 0 [1; 1]) (pl_dofs eFace)))) =
    sqrt (nth o [1; 3; 2; 9] 0 * nth o [1; 3; 2; 9] 0 + nth (o + 1) [1; 3; 2; 9] 0 * nth (o + 1) [1; 3; 2; 9] 0)).
  { intros o. unfold speed, vdot, field. cbn [rsum]. rewrite !V. f_equal. rewrite !Nat.add_0_r. cbn [Nat.mul Nat.add]. rewrite ?Nat.add_0_r. ring. }
  change (f_s1 eFp) with (fun _ : nat => 1). change (f_s2 eFp) with (fun _ : nat => 1). rewrite !Q. cbn. intros E. apply sqrt_inj in E; lra.
Qed.

(** A given wind is not used by the precomputed evaluation *)
Definition wPt : qpt := Qpt 1 (fun _ => 1) (fun _ _ => 1) (fun _ _ => 1) (fun _ _ => 1) 1 None (Some (fun _ => 0)).
Lemma wind_differs : exists p, geometry 1 p /\ q_vQ p <> None /\
  conv_fast 1 1 p 1 (pre_elem 1 1 p (fun _ _ => 1)) (fun _ => 1) (fun _ => 0) 0%nat <>
  0 + tested 1 (colf (fun _ _ => 1) 0) (conv_qvector 1 1 p 1 (comb 1 (fun _ _ => 1) (fun _ => 1))).
Proof.
  exists wPt. split; [intros t e _ _; cbn; lra|]. split; [discriminate|].
  pose proof (conv_qtested 1 1 wPt 1 (comb 1 (fun _ _ => 1) (fun _ => 1)) (colf (fun _ _ => 1) 0)) as E. change (1 * 1)%nat with 1%nat in E. rewrite E.
  unfold convection_at. cbn [q_vQ wPt rsum]. unfold conv_fast, mult_t, mult, mult_atb, pre_elem, with_q, phys, view. cbn. lra.
Qed.

(** The Jacobian of the flux leaves out the other side when the integrator was last used on a boundary face *)
Lemma stale_differs : exists G J, smooth_face 1 1 1 false [fp0] (comb 2 (fun i j => if (i =? j)%nat then 1 else 0) (fun i => if (i =? 0)%nat then 2 else 1)) /\
  lf_face_qgrad 1 1 1 false fp0 1 (comb 2 (fun i j => if (i =? j)%nat then 1 else 0) (fun i => if (i =? 0)%nat then 2 else 1)) (fun _ => 0) = Some G /\
  lf_fast_grad 2 1 true false false fp0 1 (pre_face 1 1 1 fp0 (fun i j => if (i =? j)%nat then 1 else 0)) (fun i => if (i =? 0)%nat then 2 else 1) (fun _ => 0) zero_m = Some J /\
  J 0%nat 1%nat <> rap 2 2 (fun i j => if (i =? j)%nat then 1 else 0) G (fun i j => if (i =? j)%nat then 1 else 0) 0%nat 1%nat.
Proof.
  set (bel := fun i j : nat => if (i =? j)%nat then 1 else 0). set (x := fun i : nat => if (i =? 0)%nat then 2 else 1).
  assert (Ex : forall o, field o 1 (fun _ => 1) (comb 2 bel x) = fun d => comb 2 bel x (o + d)%nat).
  { intros o. apply functional_extensionality. intros d. unfold field. cbn [rsum]. rewrite Nat.add_0_r, Nat.mul_1_r. ring. }
  assert (S1 : speed 1 (field 0 1 (f_s1 fp0) (comb 2 bel x)) = 2).
  { change (f_s1 fp0) with (fun _ : nat => 1). rewrite Ex. unfold speed, vdot, comb, bel, x. cbn. replace (0 + _) with (2 * 2) by ring. apply sqrt_square. lra. }
  assert (S2 : speed 1 (field (1 * 1) 1 (f_s2 fp0) (comb 2 bel x)) = 1).
  { change (f_s2 fp0) with (fun _ : nat => 1). rewrite Ex. unfold speed, vdot, comb, bel, x. cbn. replace (0 + _) with (1 * 1) by ring. apply sqrt_square. lra. }
  assert (Sm : smooth_face 1 1 1 false [fp0] (comb 2 bel x)). { intros p [<-|[]]. cbn [Nat.eqb]. left. rewrite S1, S2. lra. }
  destruct (lf_fast_grad_ok 2 1 1 1 false true fp0 1 bel x zero_m (fun _ => 0) (fun _ => 0) (fun _ => eq_refl) Sm) as (G & J1 & EG & EJ1 & V).
  set (u1 := mult 2 (pe_s1 (pre_face 1 1 1 fp0 bel)) x). set (u2 := mult 2 (pe_s2 (pre_face 1 1 1 fp0 bel)) x).
  assert (U1 : u1 = field 0 1 (f_s1 fp0) (comb 2 bel x)) by apply face_u1.
  assert (U2 : u2 = field (1 * 1) 1 (f_s2 fp0) (comb 2 bel x)) by (apply face_u2; lia).
  assert (M1 : sqrt (inner 1 u1 u1) = 2) by (rewrite U1; exact S1). assert (M2 : sqrt (inner 1 u2 u2) = 1) by (rewrite U2; exact S2).
  assert (M3 : sqrt (inner 1 (f_nor fp0) (f_nor fp0)) = 1) by (unfold inner; cbn; rewrite Rplus_0_l; apply sqrt_square; lra).
  assert (u1 0%nat = 2 /\ u2 0%nat = 1) as (A1 & A2).
  { rewrite U1, U2. change (f_s2 fp0) with (fun _ : nat => 1). change (f_s1 fp0) with (fun _ : nat => 1). rewrite !Ex. unfold comb, bel, x. cbn. lra. }
  assert (G12 : forall memb, exists g1 g2, lf_grad 1 u1 u2 (f_nor fp0) true memb = Some (g1, g2) /\ g2 0%nat 0%nat = if memb then -1 else 0).
  { intros memb. unfold lf_grad. cbn zeta. rewrite M1, M2, M3. destruct (Rle_dec 1 2); [|lra]. cbn [negb]. rewrite andb_false_r. destruct (Req_EM_T 2 0); [lra|].
    eexists. eexists. split; [reflexivity|]. destruct memb; [|reflexivity]. unfold add_vwt, scale, zero_m, inner. cbn [rsum Nat.eqb]. rewrite A2. cbn [f_nor fp0].
    rewrite Rmax_left by lra. lra. }
  unfold lf_fast_grad in EJ1. cbn zeta in EJ1. unfold lf_fast_u2 in EJ1. cbn [negb Nat.eqb orb] in EJ1. fold u1 in EJ1. fold u2 in EJ1.
  destruct (G12 true) as (g1 & g2 & Eg & Vg). rewrite Eg in EJ1.
  destruct (G12 false) as (h1 & h2 & Eh & Vh).
  exists G. unfold lf_fast_grad. cbn zeta. unfold lf_fast_u2. cbn [negb Nat.eqb orb]. fold u1 u2. rewrite Eh. eexists. split; [exact Sm|]. split; [exact EG|]. split; [reflexivity|].
  specialize (V 0%nat 1%nat ltac:(lia)). change (1 * 1 + 1 * 1)%nat with 2%nat in V. unfold zero_m in V. rewrite Rplus_0_l in V. intros K. rewrite <- V in K. injection EJ1 as <-.
  unfold add_rtap, zero_m in K. cbn [rsum] in K.
  assert (P : pe_s1 (pre_face 1 1 1 fp0 bel) 0%nat 0%nat = 1 /\ pe_s1 (pre_face 1 1 1 fp0 bel) 0%nat 1%nat = 0 /\ pe_s2 (pre_face 1 1 1 fp0 bel) 0%nat 0%nat = 0 /\ pe_s2 (pre_face 1 1 1 fp0 bel) 0%nat 1%nat = 1).
  { rewrite !face_s1, !face_s2 by lia. unfold field, colf, bel. cbn. lra. }
  destruct P as (P1 & P2 & P3 & P4). rewrite P1, P2, P3, P4, Vg, Vh in K. cbn in K. lra.
Qed.

(** Rows before the variable in the basis are not skipped by the precomputation *)
Definition oB1 : dmat := DMat 2 1 [0; 1].
Definition oB2 : dmat := DMat 1 1 [1].
Definition oPl : iplace := IPlace [0%Z] [0%Z] 1 1 (fun _ => fp0).
Definition oSmp : list (sinfo R) := [Build_sinfo 0%Z 0%Z 1].
Definition oY : bvec := BVec [0; 1; 2]%nat [0; 0].
Lemma oY_wf : bv_wf oY 2 (fun _ => 1%nat).
Proof. split; [|reflexivity]. split; [reflexivity|]. split; [reflexivity|]. intros i Hi. destruct i as [|[|i]]; try lia; reflexivity. Qed.
Lemma o_fits s : In s oSmp -> ifast_fits 1 1 1 1 [Some oPl] s.
Proof. intros [<-|[]]. split; [cbn; lia|]. split; [cbn; lia|]. exists oPl. cbn. split; [reflexivity|]. split; [discriminate|]. split; [discriminate|]. split; [intros d [<-|[]]; lia|]. split; [intros d [<-|[]]; lia|]. split; reflexivity. Qed.
Lemma offset_differs : exists ps y z, port_pre oB1 oB2 1 [Some oPl] oSmp = Ok ps /\
  port_fast 1 1 1 0 1 1 [Some oPl] [1] [1] oSmp ps oY = Ok y /\
  port_mult oB1 oB2 1 0 0 1 1 (map (option_map (isite_at 1 false (fun _ => 0))) [Some oPl]) [1] [1] oSmp oY = Ok z /\ y <> z.
Proof.
  pose proof o_fits as Fit.
  destruct (port_fast_ok oB1 oB2 1 0 1 1 1 1 false (fun _ => 0) [Some oPl] [1] [1] 2 (fun _ => 1%nat)) with (l := oSmp) (y := oY) as (ps & y & E1 & E2 & E3); auto; try (unfold dm_wf; cbn; lia); [apply oY_wf|].
  destruct (port_mult_ok oB1 oB2 1 0 0 1 1 1 1 (map (option_map (isite_at 1 false (fun _ => 0))) [Some oPl]) [1] [1] 2 (fun _ => 1%nat)) with (l := oSmp) (y := oY) as (z & F & Wz & Oz & Vz);
    auto; try (unfold dm_wf; cbn; lia); [apply oY_wf|intros s Hs; apply ifast_sample; auto|].
  destruct (port_mult_ok oB1 oB2 0 0 0 1 1 1 1 (map (option_map (isite_at 1 false (fun _ => 0))) [Some oPl]) [1] [1] 2 (fun _ => 1%nat)) with (l := oSmp) (y := oY) as (z' & F' & Wz' & Oz' & Vz');
    auto; try (unfold dm_wf; cbn; lia); [apply oY_wf|intros s Hs; apply ifast_sample; auto|].
  rewrite E3 in F'. injection F' as <-. exists ps, y, z. split; [exact E1|]. split; [exact E2|]. split; [exact F|]. intros ->.
  specialize (Vz 0%nat 0%nat ltac:(lia) ltac:(lia)). specialize (Vz' 0%nat 0%nat ltac:(lia) ltac:(lia)). rewrite Vz in Vz'. apply Rplus_eq_reg_l in Vz'. clear - Vz'.
  unfold oSmp in Vz'. rewrite !lsum_cons in Vz'. unfold lsum in Vz'. cbn [fold_right] in Vz'. rewrite !Rplus_0_r in Vz'.
  assert (Q : forall o, port_at oB1 oB2 o 0 0 1 (map (option_map (isite_at 1 false (fun _ => 0))) [Some oPl]) [1] [1] 0 0 (Build_sinfo 0%Z 0%Z 1) =
    tested (1 * 1) (vnth (on_dofs (mode oB1 o 0) [0%Z])) (fst (lf_itf_qvector 1 1 1 false fp0 1 (vnth (on_dofs (lift oB1 o [1]) [0%Z])) (vnth (on_dofs (lift oB2 0 [1]) [0%Z])) (fun _ => 0)))).
  { intros o. unfold port_at, isite_of. cbn [si_el map option_map nth Z.to_nat Nat.eqb si_qp si_qw]. rewrite Rplus_0_r. unfold iform_at. cbn [is_quad isite_at is_d1 is_d2 fst snd oPl ip_d1 ip_d2 ip_n1 ip_n2 ip_pts List.length].
    rewrite dot_tab. reflexivity. }
  rewrite !Q in Vz'.
  assert (T : forall o, tested (1 * 1) (vnth (on_dofs (mode oB1 o 0) [0%Z])) (fst (lf_itf_qvector 1 1 1 false fp0 1 (vnth (on_dofs (lift oB1 o [1]) [0%Z])) (vnth (on_dofs (lift oB2 0 [1]) [0%Z])) (fun _ => 0))) =
    - (1 * coef (Some 2)) * (nth o [0; 1] 0 * lax 1 (fun _ => 1) (field 0 1 (fun _ => 1) (vnth (on_dofs (lift oB1 o [1]) [0%Z]))) (field 0 1 (fun _ => 1) (vnth (on_dofs (lift oB2 0 [1]) [0%Z]))) 0%nat)).
  { intros o. destruct (itf_qtested 1 1 1 false fp0 1 (vnth (on_dofs (mode oB1 o 0) [0%Z])) (fun _ => 0) (vnth (on_dofs (lift oB1 o [1]) [0%Z])) (vnth (on_dofs (lift oB2 0 [1]) [0%Z])) (fun _ => 0) ltac:(lia)) as (T & _).
    rewrite T. f_equal. cbn [rsum]. rewrite Rplus_0_l. f_equal. unfold field, on_dofs, mode, mget, dofs, dofn, vnth. cbn. rewrite !Nat.add_0_r. ring. }
  rewrite !T in Vz'. cbn [nth] in Vz'. rewrite Rmult_0_l, Rmult_0_r in Vz'.
  assert (L : field 0 1 (fun _ => 1) (vnth (on_dofs (lift oB1 1 [1]) [0%Z])) = field 0 1 (fun _ => 1) (vnth (on_dofs (lift oB2 0 [1]) [0%Z]))).
  { apply functional_extensionality. intros d. unfold field. cbn [rsum]. f_equal. }
  rewrite L, lax_consistent in Vz'. unfold vdot, field, on_dofs, lift, mget, dofs, dofn, vnth, coef in Vz'. cbn in Vz'. lra.
Qed.
