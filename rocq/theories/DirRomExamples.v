(** Reduced Poisson, elasticity and Stokes systems on two copies of a component, with symmetric full-order matrices. *)
From Coq Require Import Reals List Bool Lia Lra Arith ZArith String.
From Verif Require Import Outcome LaBase LinalgModel LinalgSpec RomModel RomSpec RomProofs MbModel MbSpec ItfModel ItfSpec ProbModel BcModel BupModel BupSpec BupExamples BupProperties
  DirRomSpec DirRomProofs DirRomProperties.
From Verif Require DirModel DirSpec BcSpec RomExamples.
Import ListNotations.
Local Open Scope nat_scope.

(** Integrators with symmetric element matrices. *)
Definition dr_itf : mat_integ := fun f i j => FMat (if i =? 0 then 1 else 2) (if j =? 0 then 1 else 2) (fun k l => INR (1 + (i + k) * (j + l))).
Definition dr_nu : numerics :=
  Numerics (fun I _ e p q => INR (1 + e + p + q)) (fun I _ e p q => INR (2 + p * q)) (fun I _ e p q => INR (3 + e + p + q)) (fun I => dr_itf).
Example dr_itf_ok it : itf_ok dr_nu bx_g bx_fes bx_fes it.
Proof.
  assert (F : ports_fit bx_fes (g_refs bx_g)).
  { split.
    - intros p [<-|[]]. cbn. lia.
    - intros p f i H Hi d Hd. cbn in H. destruct H as [H|[]]. injection H as <- <-. destruct i as [|[|i]]; try lia; cbn in Hd; intuition subst; cbn; lia. }
  split; [reflexivity|]. split; [reflexivity|]. split; [exact F|]. split; [exact F|]. split.
  - intros p f i j H Hi Hj. cbn in H. destruct H as [H|[]]. injection H as <- <-. destruct i as [|[|i]]; try lia; destruct j as [|[|j]]; try lia; cbn; lia.
  - intros [|k] Hk; [|cbn in Hk; lia]. constructor; [exact Logic.I|]. constructor; [|constructor]. split; [reflexivity|]. split; [reflexivity|]. intros x i j [<-|[]] _ _. split; [reflexivity|]. split; reflexivity.
Qed.
Example dr_copied dom int bd : copied dr_nu bx_g dom int bd.
Proof. intros m e p q Hm. split; [reflexivity|]. split; reflexivity. Qed.

Definition dr_fes (n : nat) : list fespace := repeat (Fes 1 (fun _ => [])) n.
Example dr_spaces sep o : reduced_spaces (rs_h (bx_st sep o)) (dr_fes 2).
Proof.
  split; [destruct sep; reflexivity|]. intros m v (H1 & H2). cbn in H1. destruct sep, o; cbn in H2; destruct m as [|[|m]]; try lia; (destruct v; [|lia]); reflexivity.
Qed.
Example dr_poisson : exists A, poisson_full dr_nu bx_g bx_fes false (-1) 2 bx_types bx_bdr = Ok A /\
  DirSpec.symmetric_on (sub_spaces bx_g bx_fes) (bm_entry A) /\ val (A 0 1) 1 0 <> 0%R.
Proof.
  eexists. split; [vm_compute; reflexivity|]. split.
  - intros [m i] [m' j] (Hm & Hi) (Hm' & Hj). cbn in Hm, Hm'. destruct m as [|[|m]]; [| |lia]; (destruct m' as [|[|m']]; [| |lia]); cbn in Hi, Hj;
      (destruct i as [|[|i]]; [| |lia]); (destruct j as [|[|j]]; [| |lia]); unfold bm_entry; cbn; lra.
  - cbn. lra.
Qed.
Example dr_reduced sep o : exists B, poisson_rom dr_nu (bx_st sep o) bx_g bx_fes false (-1) 2 bx_types bx_bdr = Ok B /\
  forall b x, DirModel.mumps_mult (dr_fes 2) DirModel.SYMMETRIC_POSITIVE_DEFINITE (bm_entry B) b x -> DirSpec.solves (dr_fes 2) (bm_entry B) b x.
Proof.
  destruct (C140_reduced_poisson dr_nu (bx_st sep o) (fun _ => 2) bx_g bx_fes false (-1) 2 bx_types bx_bdr bx_enf (dr_fes 2) None
    DirModel.SYMMETRIC_POSITIVE_DEFINITE bx_geo (bx_bases sep o) bx_sized bx_weak (dr_copied _ _ _) (dr_itf_ok _) (dr_spaces sep o) eq_refl) as (A & B & EA & EB & H).
  exists B. split; [exact EB|]. apply H. destruct dr_poisson as (A' & EA' & Sa & _). rewrite EA in EA'. injection EA' as <-. exact Sa.
Qed.

(** The same for Stokes with one basis of both variables, and for elasticity. *)
Ltac dr_entries := intros [m i] [m' j] (Hm & Hi) (Hm' & Hj); cbn in Hm, Hm'; destruct m as [|[|m]]; [| |lia]; (destruct m' as [|[|m']]; [| |lia]); cbn in Hi, Hj;
  (destruct i as [|[|i]]; [| |lia]); (destruct j as [|[|j]]; [| |lia]); unfold bm_entry; cbn; lra.
Example dr_stokes o : exists R, stokes_rom dr_nu (bx_st2 o) bx_g bx_fes bx_fes false 1 (-1) 2 bx_types bx_bdr = Ok R /\
  forall b x, DirModel.mumps_mult (dr_fes 2) DirModel.SYMMETRIC_INDEFINITE (bm_entry R) b x -> DirSpec.solves (dr_fes 2) (bm_entry R) b x.
Proof.
  assert (F : reduced_spaces (rs_h (bx_st2 o)) (dr_fes 2)).
  { split; [reflexivity|]. intros m v (H1 & H2). cbn in H1, H2. subst v. destruct m as [|[|m]]; [reflexivity|reflexivity|lia]. }
  destruct (C140_reduced_stokes dr_nu (bx_st2 o) (fun _ => 4) bx_g bx_fes bx_fes false 1 (-1) 2 bx_types bx_bdr bx_enf (dr_fes 2) (Some "sid"%string)
    DirModel.SYMMETRIC_INDEFINITE bx_geo (bx_stokes_one o) bx_sized bx_weak (dr_copied _ _ _) (dr_copied _ _ _) (dr_itf_ok _) (dr_itf_ok _) F eq_refl) as (M & B & R & EM & ER & H).
  exists R. split; [exact ER|]. apply H. vm_compute in EM. injection EM as <- _. dr_entries.
Qed.
Example dr_elasticity : exists B, elast_rom dr_nu (bx_st true ByVariable) bx_g bx_fes true (-1) 2 bx_ls = Ok B /\
  forall b x, DirModel.mumps_mult (dr_fes 2) DirModel.SYMMETRIC_POSITIVE_DEFINITE (bm_entry B) b x -> DirSpec.solves (dr_fes 2) (bm_entry B) b x.
Proof.
  destruct (C140_reduced_elasticity dr_nu (bx_st true ByVariable) (fun _ => 2) bx_g bx_fes (-1) 2 bx_ls (dr_fes 2) (Some "spd"%string)
    DirModel.SYMMETRIC_POSITIVE_DEFINITE bx_geo ltac:(cbn; lia) (bx_bases _ _) bx_ls_sized) as (A & B & EA & EB & H).
  - intros [|[|[|b]]] Hb; cbn in *; auto; try congruence. destruct b; cbn in Hb; congruence.
  - apply dr_copied.
  - apply dr_itf_ok.
  - apply dr_spaces.
  - reflexivity.
  - exists B. split; [exact EB|]. apply H. vm_compute in EA. injection EA as <-. dr_entries.
Qed.
