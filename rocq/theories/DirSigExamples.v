(** The nonsymmetric interior penalty form, [alpha = 1], between two elements whose own forms are unit matrices. *)
From Coq Require Import Reals List Bool Lia Arith ZArith Lra.
From Verif Require Import Outcome LaBase IntegModel DgModel DgSpec MbModel MbSpec ItfModel ItfSpec DirModel DirSpec DirProofs DirExamples DirSigProofs.
Import ListNotations.
Local Open Scope nat_scope.

Example sg_unit : exists bk B, iel_itf 1 2 2 true 1 4 [sg_pt] = Ok bk /\ itf_matrices sg_fes [block_integ (fun _ => bk)] sg_ports dx_forms = Ok B /\
  bm_entry B (0, 0) (1, 0) <> bm_entry B (1, 0) (0, 0) /\ mumps_matrix (fom_type LinElast) (bm_entry B) (0, 0) (1, 0) = bm_entry B (1, 0) (0, 0).
Proof.
  destruct (sg_elasticity 1 4) as (bk & Eb & Zb & E1 & E2). exists bk.
  destruct (sg_wrong bk dx_forms Zb ltac:(rewrite E1, E2; lra) dx_mats_fit dx_symmetric) as (B & EB & N).
  exists B. split; [exact Eb|]. split; [exact EB|]. split; [exact N|reflexivity].
Qed.
