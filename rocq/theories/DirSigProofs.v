(** Two elements of one dimension side by side: what an unsymmetric interface does to the assembled matrix. *)
From Coq Require Import Reals List Bool Lia Arith ZArith String Lra.
From Verif Require Import Outcome ListLemmas LaBase EqpSpec IntegModel DgModel DgSpec DgItfProofs DgProperties MbModel MbSpec ItfModel ItfSpec ItfProofs ItfAlgProofs ItfPortProofs
  ItfProperties DirModel DirSpec DirProofs.
Import ListNotations.
Local Open Scope nat_scope.

Definition sg_side (at_end : nat) : DgModel.side :=
  Side (fun i => if i =? at_end then 1%R else 0%R) (fun i _ => if i =? 1 then 1%R else (-1)%R) (fun _ _ => 1%R) 1 (Some 1%R) (Some 0%R) None.
Definition sg_pt : dpt := DPt 1 (fun _ => 1%R) (sg_side 1) (sg_side 0).
Definition sg_fes : list fespace := [Fes 2 (fun _ => [0%Z; 1%Z]); Fes 2 (fun _ => [0%Z; 1%Z])].
Definition sg_ports : list itf_port := [ItfPort 0 1 [Some (Face 0 0 0)]].

Lemma sg_fit : ports_fit sg_fes sg_ports.
Proof.
  split; [intros p [<-|[]]; cbn; lia|]. intros p f i [E|[]] Hi d Hd. injection E as <- <-.
  destruct i as [|[|i]]; [| |lia]; cbn in Hd; destruct Hd as [<-|[<-|[]]]; cbn; lia.
Qed.
Lemma sg_blocks good : (good 2 2 (Face 0 0 0) : Prop) -> blocks_fit sg_fes sg_ports good.
Proof. intros H p f [E|[]]. injection E as <- <-. exact H. Qed.

Lemma sg_wrong bk A : sized 2 2 2 2 bk -> s_at (b01 bk) 0 0 <> s_at (b10 bk) 0 0 -> mats_fit sg_fes sg_fes A -> symmetric_on sg_fes (bm_entry A) ->
  exists B, itf_matrices sg_fes [block_integ (fun _ => bk)] sg_ports A = Ok B /\ bm_entry B (0, 0) (1, 0) <> bm_entry B (1, 0) (0, 0).
Proof.
  intros Zb N FA SA.
  assert (D : forall g, In g [block_integ (fun _ => bk)] -> elem_fits sg_fes sg_fes sg_ports (fun _ => g)).
  { intros g [<-|[]] p f i j [E|[]] Hi Hj. injection E as <- <-. destruct Zb as ((A1 & A2) & (B1 & B2) & (C1 & C2) & D1 & D2).
    destruct i as [|[|i]]; [| |lia]; (destruct j as [|[|j]]; [| |lia]); cbn [block_integ fm_h fm_w side_dofs side fth nth sg_fes ip_m1 ip_m2 fe_dofs List.length Nat.eqb]; lia. }
  destruct (C49_matrices sg_fes sg_fes _ sg_ports A sg_fit sg_fit FA D) as (B & _ & _ & E & V). exists B. split; [apply E; reflexivity|].
  assert (I0 : in_range sg_fes (0, 0)) by (unfold in_range; cbn; lia).
  assert (I1 : in_range sg_fes (1, 0)) by (unfold in_range; cbn; lia).
  rewrite (V (0, 0) (1, 0)), (V (1, 0) (0, 0)), (SA (0, 0) (1, 0) I0 I1).
  assert (M1 : mat_at (all_contribs sg_fes sg_fes sg_ports [block_integ (fun _ => bk)] (fun g _ => g)) (0, 0) (1, 0) = s_at (b01 bk) 0 0).
  { cbv -[Rplus Rmult IZR s_at b00 b01 b10 b11]. ring. }
  assert (M2 : mat_at (all_contribs sg_fes sg_fes sg_ports [block_integ (fun _ => bk)] (fun g _ => g)) (1, 0) (0, 0) = s_at (b10 bk) 0 0).
  { cbv -[Rplus Rmult IZR s_at b00 b01 b10 b11]. ring. }
  match goal with |- (?a + ?m1)%R <> (?b + ?m2)%R => replace m1 with (s_at (b01 bk) 0 0) by (symmetry; exact M1);
    replace m2 with (s_at (b10 bk) 0 0) by (symmetry; exact M2) end.
  intros X. apply N. lra.
Qed.

Definition e0 (i : nat) : R := if i =? 0 then 1%R else 0%R.
Definition z0 (i : nat) : R := 0%R.
Lemma form_01 bk : form 2 2 2 2 bk z0 e0 e0 z0 = s_at (b01 bk) 0 0.
Proof. unfold form, paired, e0, z0. cbn. ring. Qed.
Lemma form_10 bk : form 2 2 2 2 bk e0 z0 z0 e0 = s_at (b10 bk) 0 0.
Proof. unfold form, paired, e0, z0. cbn. ring. Qed.

Lemma sg_elasticity alpha kappa : exists bk, iel_itf 1 2 2 true alpha kappa [sg_pt] = Ok bk /\ sized 2 2 2 2 bk /\
  s_at (b01 bk) 0 0 = alpha%R /\ s_at (b10 bk) 0 0 = (- 1)%R.
Proof.
  destruct (C106_elasticity 1 2 2 alpha kappa [sg_pt] ltac:(lia) ltac:(lia)) as (bk & Eb & Zb & Fb).
  { intros p [<-|[]]. cbn. unfold has_lame. cbn. repeat split; try discriminate; lra. }
  exists bk. split; [exact Eb|]. split; [exact Zb|]. rewrite <- form_01, <- form_10. split.
  - etransitivity; [apply Fb|]. unfold el_point, traction, trace, slope, sq, comp, e0, z0. cbn. field.
  - etransitivity; [apply Fb|]. unfold el_point, traction, trace, slope, sq, comp, e0, z0. cbn. field.
Qed.

Lemma sg_velocity sigma kappa : exists bk, ivd_itf 1 2 2 true true sigma kappa [sg_pt] = Ok bk /\ sized 2 2 2 2 bk /\
  s_at (b01 bk) 0 0 = (sigma / 2)%R /\ s_at (b10 bk) 0 0 = (- / 2)%R.
Proof.
  destruct (C106_vector_diffusion 1 2 2 sigma kappa [sg_pt] ltac:(lia) ltac:(lia)) as (bk & Eb & Zb & Fb).
  { intros p [<-|[]]. cbn. unfold has_mu. cbn. repeat split; try discriminate; lra. }
  exists bk. split; [exact Eb|]. split; [exact Zb|]. rewrite <- form_01, <- form_10. split.
  - etransitivity; [apply Fb|]. unfold ip_form, ip_point, trace, flux, slope, stiff, sq, comp, e0, z0. cbn. field.
  - etransitivity; [apply Fb|]. unfold ip_form, ip_point, trace, flux, slope, stiff, sq, comp, e0, z0. cbn. field.
Qed.
