(** C140 is false for elasticity and flows too when the interface parameter is not -1. *)
From Coq Require Import Reals List Bool Lia Arith ZArith String Lra.
From Verif Require Import Outcome LaBase EqpSpec IntegModel DgModel DgSpec MbModel MbSpec ItfModel ItfSpec DirModel DirSpec DirProofs DirSigProofs DirProperties.
Import ListNotations.
Local Open Scope nat_scope.

(** Elasticity with any other [discretization/interface/alpha]. *)
Theorem C140_alpha_refuted : forall alpha kappa, alpha <> (-1)%R ->
  exists fes ports rule bs, ports_fit fes ports /\
  blocks_fit fes ports (fun n1 n2 f => 0 < n1 /\ 0 < n2 /\ iel_itf 1 n1 n2 true alpha kappa (rule f) = Ok (bs f)) /\
  forall A, mats_fit fes fes A -> symmetric_on fes (bm_entry A) ->
  exists B, itf_matrices fes [block_integ bs] ports A = Ok B /\
  exists b x, mumps_mult fes (fom_type LinElast) (bm_entry B) b x /\ ~ solves fes (bm_entry B) b x.
Proof.
  intros alpha kappa Ha. destruct (sg_elasticity alpha kappa) as (bk & Eb & Zb & E1 & E2).
  exists sg_fes, sg_ports, (fun _ => [sg_pt]), (fun _ => bk). split; [apply sg_fit|]. split; [apply sg_blocks; split; [lia|split; [lia|exact Eb]]|].
  intros A FA SA. destruct (sg_wrong bk A Zb ltac:(rewrite E1, E2; lra) FA SA) as (B & EB & N). exists B. split; [exact EB|].
  apply (mult_wrong sg_fes (fom_type LinElast) (bm_entry B) (0, 0) (1, 0)); auto; [discriminate| |]; unfold in_range; cbn; lia.
Qed.
Print Assumptions C140_alpha_refuted.

(** Stokes with any other [discretization/interface/sigma], whatever the divergence matrix and the number of pressures. *)
Theorem C140_flow_sigma_refuted : forall sigma kappa, sigma <> (-1)%R ->
  exists fes ports rule bs, ports_fit fes ports /\ (forall m, m < 2 -> fe_size (fth fes m) = 2) /\ List.length fes = 2 /\
  blocks_fit fes ports (fun n1 n2 f => 0 < n1 /\ 0 < n2 /\ ivd_itf 1 n1 n2 true true sigma kappa (rule f) = Ok (bs f)) /\
  forall A, mats_fit fes fes A -> symmetric_on fes (bm_entry A) ->
  exists M, itf_matrices fes [block_integ bs] ports A = Ok M /\
  forall np D, let sys := [Fes 4 (fun _ => []); Fes np (fun _ => [])] in
  let F := flow_matrix (fun i j => bm_entry M (i / 2, i mod 2) (j / 2, j mod 2)) D in
  exists b x, mumps_mult sys (fom_type Stokes) F b x /\ ~ solves sys F b x.
Proof.
  intros sigma kappa Hs. destruct (sg_velocity sigma kappa) as (bk & Eb & Zb & E1 & E2).
  exists sg_fes, sg_ports, (fun _ => [sg_pt]), (fun _ => bk). split; [apply sg_fit|].
  split; [intros [|[|m]] Hm; [reflexivity|reflexivity|lia]|]. split; [reflexivity|].
  split; [apply sg_blocks; split; [lia|split; [lia|exact Eb]]|].
  intros A FA SA. destruct (sg_wrong bk A Zb ltac:(rewrite E1, E2; lra) FA SA) as (M & EM & N). exists M. split; [exact EM|].
  intros np D sys F. apply (mult_wrong sys (fom_type Stokes) F (0, 0) (0, 2)); [discriminate|unfold in_range; cbn; lia|unfold in_range; cbn; lia|exact N].
Qed.
Print Assumptions C140_flow_sigma_refuted.
