(** C140: a direct solve solves the assembled system. *)
From Coq Require Import Reals List Bool Lia Arith ZArith String Lra.
From Verif Require Import Outcome ListLemmas LaBase EqpSpec IntegModel DgModel DgSpec DgItfProofs DgProperties MbModel MbSpec ItfModel ItfSpec ItfProofs ItfAlgProofs ItfPortProofs
  ItfProperties DirModel DirSpec DirProofs.
Import ListNotations.
Local Open Scope nat_scope.

(** C140: what the direct solver returns solves the system given, for every right-hand side, exactly when the matrix
    was declared unsymmetric or is symmetric. *)
Theorem C140_exact : forall fes ty A,
  (forall b x, mumps_mult fes ty A b x -> solves fes A b x) <-> ty = UNSYMMETRIC \/ symmetric_on fes A.
Proof.
  intros fes ty A. split.
  - intros H. destruct ty; [left; reflexivity| |]; right; intros p q Hp Hq;
      (destruct (Req_dec (A p q) (A q p)) as [E|N]; [exact E|exfalso]);
      [destruct (mult_wrong fes SYMMETRIC_INDEFINITE A p q ltac:(discriminate) Hp Hq N) as (b & x & M & S0)
      |destruct (mult_wrong fes SYMMETRIC_POSITIVE_DEFINITE A p q ltac:(discriminate) Hp Hq N) as (b & x & M & S0)]; apply S0, H, M.
  - intros H b x M. apply (mult_solves fes ty A b x H). exact M.
Qed.
Print Assumptions C140_exact.

(** C140: advection-diffusion and the Jacobians of steady flow may be any matrices. *)
Theorem C140_unsymmetric : forall k fes A b x, k = AdvDiff \/ k = SteadyNS ->
  (mumps_mult fes (fom_type k) A b x <-> solves fes A b x).
Proof. intros k fes A b x [-> | ->]; apply mult_solves; left; reflexivity. Qed.
Print Assumptions C140_unsymmetric.

(** C140 for the Poisson equation with the default [sigma = -1]: if the forms of the subdomains are symmetric, so is the
    system assembled over the interfaces, and the direct solve solves it. *)
Theorem C140_poisson : forall fes ports A dim kappa rule bs, ports_fit fes ports -> mats_fit fes fes A ->
  symmetric_on fes (bm_entry A) ->
  blocks_fit fes ports (fun n1 n2 f => 0 < n1 /\ 0 < n2 /\ diff_itf dim n1 n2 true (-1) kappa (rule f) = Ok (bs f)) ->
  exists B, itf_matrices fes [block_integ bs] ports A = Ok B /\
  forall b x, mumps_mult fes (fom_type Poisson) (bm_entry B) b x <-> solves fes (bm_entry B) b x.
Proof.
  intros fes ports A dim kappa rule bs P F Sa H.
  destruct (blocks_sym fes ports bs) as [D S0].
  { intros p f Hf. destruct (H p f Hf) as (N1 & N2 & E). destruct (diff_itf_entries dim (List.length (side_dofs fes p f 0)) _ (-1) kappa (rule f) N2) as (b & E' & Z & _).
    rewrite E in E'. injection E' as <-. split; [exact Z|]. apply (proj1 (C106_symmetric dim _ _ kappa (rule f) N1 N2) _ E). }
  destruct (assembled_symmetric fes [block_integ bs] ports A P F) as (B & E & Sb); auto.
  { intros g [<-|[]]; exact D. } { intros g [<-|[]]; exact S0. }
  exists B. split; auto. intros b x. apply mult_solves. right. exact Sb.
Qed.
Print Assumptions C140_poisson.

(** C140 for linear elasticity with the default [alpha = -1]. *)
Theorem C140_elasticity : forall fes ports A dim kappa rule bs, ports_fit fes ports -> mats_fit fes fes A ->
  symmetric_on fes (bm_entry A) ->
  blocks_fit fes ports (fun m1 m2 f => exists n1 n2, m1 = dim * n1 /\ m2 = dim * n2 /\ 0 < n1 /\ 0 < n2 /\
    (forall p, In p (rule f) -> has_lame (d_1 p) /\ has_lame (d_2 p)) /\ iel_itf dim n1 n2 true (-1) kappa (rule f) = Ok (bs f)) ->
  exists B, itf_matrices fes [block_integ bs] ports A = Ok B /\
  forall b x, mumps_mult fes (fom_type LinElast) (bm_entry B) b x <-> solves fes (bm_entry B) b x.
Proof.
  intros fes ports A dim kappa rule bs P F Sa H.
  destruct (blocks_sym fes ports bs) as [D S0].
  { intros p f Hf. destruct (H p f Hf) as (n1 & n2 & -> & -> & N1 & N2 & L & E).
    destruct (iel_itf_entries dim n1 n2 (-1) kappa (rule f) N1 N2 L) as (b & E' & Z & _).
    rewrite E in E'. injection E' as <-. split; [exact Z|]. apply (proj2 (proj2 (C106_symmetric dim _ _ kappa (rule f) N1 N2)) _ L E). }
  destruct (assembled_symmetric fes [block_integ bs] ports A P F) as (B & E & Sb); auto.
  { intros g [<-|[]]; exact D. } { intros g [<-|[]]; exact S0. }
  exists B. split; auto. intros b x. apply mult_solves. right. exact Sb.
Qed.
Print Assumptions C140_elasticity.

(** C140 for the viscous part of a flow with the default [sigma = -1]: the velocity matrix over all subdomains is
    symmetric. *)
Theorem C140_velocity : forall fes ports A dim kappa rule bs, ports_fit fes ports -> mats_fit fes fes A ->
  symmetric_on fes (bm_entry A) ->
  blocks_fit fes ports (fun m1 m2 f => exists n1 n2, m1 = dim * n1 /\ m2 = dim * n2 /\ 0 < n1 /\ 0 < n2 /\
    (forall p, In p (rule f) -> sd_mu (d_1 p) <> None /\ sd_mu (d_2 p) <> None) /\ ivd_itf dim n1 n2 true true (-1) kappa (rule f) = Ok (bs f)) ->
  exists B, itf_matrices fes [block_integ bs] ports A = Ok B /\ symmetric_on fes (bm_entry B).
Proof.
  intros fes ports A dim kappa rule bs P F Sa H.
  destruct (blocks_sym fes ports bs) as [D S0].
  { intros p f Hf. destruct (H p f Hf) as (n1 & n2 & -> & -> & N1 & N2 & L & E).
    destruct (ivd_itf_entries dim n1 n2 (-1) kappa (rule f) N1 N2 L) as (b & E' & Z & _).
    rewrite E in E'. injection E' as <-. split; [exact Z|]. apply (proj1 (proj2 (C106_symmetric dim _ _ kappa (rule f) N1 N2)) _ L E). }
  apply (assembled_symmetric fes [block_integ bs] ports A P F); auto; intros g [<-|[]]; auto.
Qed.
Print Assumptions C140_velocity.

(** C140: the flow system, and that of a time step, is solved for every divergence matrix exactly when the velocity
    matrix, or that of the time step, is symmetric. *)
Theorem C140_flow : forall nu np M B mass bd0 dt,
  let fes := [Fes nu (fun _ => []); Fes np (fun _ => [])] in
  ((forall b x, mumps_mult fes (fom_type Stokes) (flow_matrix M B) b x -> solves fes (flow_matrix M B) b x) <->
   forall i j, i < nu -> j < nu -> M i j = M j i) /\
  ((forall i j, i < nu -> j < nu -> M i j = M j i) -> (forall i j, i < nu -> j < nu -> mass i j = mass j i) ->
   forall b x, mumps_mult fes (fom_type UnsteadyNS) (flow_matrix (step_matrix bd0 dt mass M) B) b x ->
     solves fes (flow_matrix (step_matrix bd0 dt mass M) B) b x).
Proof.
  intros nu np M B mass bd0 dt fes.
  assert (R0 : forall i, in_range fes (0, i) <-> i < nu).
  { intros i. unfold in_range. cbn. lia. }
  split.
  - rewrite C140_exact, flow_symmetric. split.
    + intros [H|H] i j Hi Hj; [discriminate|]. apply H; apply (proj2 (R0 _)); assumption.
    + intros H. right. intros i j Hi Hj. apply H; apply (proj1 (R0 _)); assumption.
  - intros HM Hm b x. apply C140_exact. right. apply flow_symmetric. intros i j Hi Hj. apply (proj1 (R0 _)) in Hi. apply (proj1 (R0 _)) in Hj.
    unfold step_matrix. rewrite (HM i j), (Hm i j) by auto. reflexivity.
Qed.
Print Assumptions C140_flow.

(** C140 is false for any other [discretization/interface/sigma]: the Poisson system of two linear elements of one
    dimension is not symmetric then, whatever symmetric forms the subdomains have; it is still declared symmetric, and the direct
    solve solves another system without a word. *)
Theorem C140_sigma_refuted : forall sigma kappa, sigma <> (-1)%R ->
  exists fes ports rule bs, ports_fit fes ports /\
  blocks_fit fes ports (fun n1 n2 f => 0 < n1 /\ 0 < n2 /\ diff_itf 1 n1 n2 true sigma kappa (rule f) = Ok (bs f)) /\
  forall A, mats_fit fes fes A -> symmetric_on fes (bm_entry A) ->
  exists B, itf_matrices fes [block_integ bs] ports A = Ok B /\
  exists b x, mumps_mult fes (fom_type Poisson) (bm_entry B) b x /\ ~ solves fes (bm_entry B) b x.
Proof.
  intros sigma kappa Hs.
  set (s1 := Side (fun i => if i =? 1 then 1%R else 0%R) (fun i _ => if i =? 1 then 1%R else (-1)%R) (fun _ _ => 1%R) 1 None None None).
  set (s2 := Side (fun i => if i =? 0 then 1%R else 0%R) (fun i _ => if i =? 1 then 1%R else (-1)%R) (fun _ _ => 1%R) 1 None None None).
  set (pt := DPt 1 (fun _ => 1%R) s1 s2).
  destruct (C106_diffusion 1 2 2 sigma kappa [pt] ltac:(lia)) as (bk & Eb & Zb & Fb).
  { intros p [<-|[]]. cbn. lra. }
  set (fes := [Fes 2 (fun _ => [0%Z; 1%Z]); Fes 2 (fun _ => [0%Z; 1%Z])]).
  set (ports := [ItfPort 0 1 [Some (Face 0 0 0)]]).
  assert (Pf : ports_fit fes ports).
  { split; [intros p [<-|[]]; cbn; lia|]. intros p f i [E|[]] Hi d Hd. injection E as <- <-.
    destruct i as [|[|i]]; [| |lia]; cbn in Hd; destruct Hd as [<-|[<-|[]]]; cbn; lia. }
  exists fes, ports, (fun _ => [pt]), (fun _ => bk). split; [exact Pf|].
  assert (Bf : blocks_fit fes ports (fun n1 n2 f => 0 < n1 /\ 0 < n2 /\ diff_itf 1 n1 n2 true sigma kappa [pt] = Ok bk)).
  { intros p f [E|[]]. injection E as <- <-. cbn [side_dofs side fth nth fes ip_m1 ip_m2 fe_dofs List.length Nat.eqb]. split; [lia|]. split; [lia|exact Eb]. }
  split; [exact Bf|]. intros A FA SA.
  assert (D : forall g, In g [block_integ (fun _ => bk)] -> elem_fits fes fes ports (fun _ => g)).
  { intros g [<-|[]] p f i j [E|[]] Hi Hj. injection E as <- <-. destruct Zb as ((A1 & A2) & (B1 & B2) & (C1 & C2) & D1 & D2).
    destruct i as [|[|i]]; [| |lia]; (destruct j as [|[|j]]; [| |lia]); cbn [block_integ fm_h fm_w side_dofs side fth nth fes ip_m1 ip_m2 fe_dofs List.length Nat.eqb]; lia. }
  destruct (C49_matrices fes fes _ ports A Pf Pf FA D) as (B & _ & _ & E & V). exists B. split; [apply E; reflexivity|].
  assert (I0 : in_range fes (0, 0)) by (unfold in_range; cbn; lia).
  assert (I1 : in_range fes (1, 0)) by (unfold in_range; cbn; lia).
  apply (mult_wrong fes (fom_type Poisson) (bm_entry B) (0, 0) (1, 0)); auto; [discriminate|].
  rewrite (V (0, 0) (1, 0)), (V (1, 0) (0, 0)), (SA (0, 0) (1, 0) I0 I1).
  assert (M1 : mat_at (all_contribs fes fes ports [block_integ (fun _ => bk)] (fun g _ => g)) (0, 0) (1, 0) = s_at (b01 bk) 0 0).
  { cbv -[Rplus Rmult IZR s_at b00 b01 b10 b11]. ring. }
  assert (M2 : mat_at (all_contribs fes fes ports [block_integ (fun _ => bk)] (fun g _ => g)) (1, 0) (0, 0) = s_at (b10 bk) 0 0).
  { cbv -[Rplus Rmult IZR s_at b00 b01 b10 b11]. ring. }
  match goal with |- (?a + ?m1)%R <> (?b + ?m2)%R => replace m1 with (s_at (b01 bk) 0 0) by (symmetry; exact M1);
    replace m2 with (s_at (b10 bk) 0 0) by (symmetry; exact M2) end.
  set (e0 := fun i => if i =? 0 then 1%R else 0%R). set (z := fun _ : nat => 0%R).
  assert (F1 : s_at (b01 bk) 0 0 = (sigma / 2)%R).
  { transitivity (form 2 2 2 2 bk z e0 e0 z).
    - unfold form, paired, e0, z. cbn. ring.
    - rewrite Fb. unfold ip_form, ip_point, trace, flux, slope, stiff, sq, e0, z. cbn. field. }
  assert (F2 : s_at (b10 bk) 0 0 = (- / 2)%R).
  { transitivity (form 2 2 2 2 bk e0 z z e0).
    - unfold form, paired, e0, z. cbn. ring.
    - rewrite Fb. unfold ip_form, ip_point, trace, flux, slope, stiff, sq, e0, z. cbn. field. }
  rewrite F1, F2. intros X. apply Hs. lra.
Qed.
Print Assumptions C140_sigma_refuted.

(** C140 for reduced systems: unless [linear_system_type] is [us], the direct solve is exact only for symmetric reduced
    matrices; the default is [spd] also for advection-diffusion and Navier-Stokes. *)
Theorem C140_reduced : forall system ty fes A, rom_type (Some "direct"%string) system = Ok (Some ty) ->
  ((forall b x, mumps_mult fes ty A b x -> solves fes A b x) <-> system = Some "us"%string \/ symmetric_on fes A).
Proof.
  intros system ty fes A H. rewrite C140_exact. unfold rom_type in H. cbn [String.eqb Ascii.eqb Bool.eqb] in H.
  destruct system as [s|].
  - destruct (String.eqb_spec s "spd"); [inversion H; subst; split; (intros [E|E]; [discriminate|auto])|].
    destruct (String.eqb_spec s "sid"); [inversion H; subst; split; (intros [E|E]; [discriminate|auto])|].
    destruct (String.eqb_spec s "us"); [inversion H; subst; split; auto|]. discriminate.
  - cbn in H. inversion H; subst. split; (intros [E|E]; [discriminate|auto]).
Qed.
Print Assumptions C140_reduced.

Theorem C140_reduced_default_refuted : exists ty fes A b x, rom_type (Some "direct"%string) None = Ok (Some ty) /\
  (forall p, in_range fes p -> (0 < A p p)%R) /\ mumps_mult fes ty A b x /\ ~ solves fes A b x.
Proof.
  set (A := fun p q : place => if place_eqb p q then 2%R else if place_le q p then 1%R else 0%R).
  set (fes := [Fes 2 (fun _ => [])]).
  destruct (mult_wrong fes SYMMETRIC_POSITIVE_DEFINITE A (0, 0) (0, 1)) as (b & x & M & S0).
  - discriminate.
  - unfold in_range; cbn; lia.
  - unfold in_range; cbn; lia.
  - unfold A. cbn. lra.
  - exists SYMMETRIC_POSITIVE_DEFINITE, fes, A, b, x. split; [reflexivity|]. split; [|auto].
    intros p _. unfold A, place_eqb. rewrite !Nat.eqb_refl. cbn. lra.
Qed.
Print Assumptions C140_reduced_default_refuted.
