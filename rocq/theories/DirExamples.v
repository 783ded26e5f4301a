(** Two elements of one dimension side by side: cases that meet the hypotheses of C140. *)
From Coq Require Import Reals List Bool Lia Arith ZArith String Lra.
From Verif Require Import Outcome LaBase EqpSpec IntegModel DgModel DgSpec DgProperties MbModel ItfModel ItfSpec ItfAlgProofs DirModel DirSpec DirProofs DirProperties.
Import ListNotations.
Local Open Scope nat_scope.

Definition dx_side (at_end : nat) : DgModel.side :=
  Side (fun i => if i =? at_end then 1%R else 0%R) (fun i _ => if i =? 1 then 1%R else (-1)%R) (fun _ _ => 1%R) 1 (Some 1%R) (Some 1%R) None.
Definition dx_rule : list dpt := [DPt 1 (fun _ => 1%R) (dx_side 1) (dx_side 0)].
Definition dx_fes : list fespace := [Fes 2 (fun _ => [0%Z; 1%Z]); Fes 2 (fun _ => [0%Z; 1%Z])].
Definition dx_ports : list itf_port := [ItfPort 0 1 [Some (Face 0 0 0)]].
(** Unit matrices for the subdomains. *)
Definition dx_forms : blockmat := fun i j =>
  if (i <? 2) && (j <? 2) then Some (FMat 2 2 (fun a b => if (i =? j) && (a =? b) then 1%R else 0%R)) else None.

Lemma dx_ports_fit : ports_fit dx_fes dx_ports.
Proof.
  split; [intros p [<-|[]]; cbn; lia|]. intros p f i [E|[]] Hi d Hd. injection E as <- <-.
  destruct i as [|[|i]]; [| |lia]; cbn in Hd; destruct Hd as [<-|[<-|[]]]; cbn; lia.
Qed.
Lemma dx_mats_fit : mats_fit dx_fes dx_fes dx_forms.
Proof.
  split; [reflexivity|]. intros i j Hi Hj. cbn in Hi, Hj. destruct i as [|[|i]]; [| |lia]; (destruct j as [|[|j]]; [| |lia]); eexists; (split; [reflexivity|split; reflexivity]).
Qed.
Lemma dx_symmetric : symmetric_on dx_fes (bm_entry dx_forms).
Proof.
  intros [i a] [j b] [Hi Ha] [Hj Hb]. cbn in Hi, Hj. unfold bm_entry, dx_forms. cbn [fst snd].
  rewrite (andb_comm (j <? 2)). destruct ((i <? 2) && (j <? 2)); cbn [MbSpec.val fm_val]; [|reflexivity].
  rewrite (Nat.eqb_sym j i), (Nat.eqb_sym b a). reflexivity.
Qed.

(** Poisson, elasticity and flow, [sigma = -1], penalty 4. *)
Example dx_poisson : exists bs B, diff_itf 1 2 2 true (-1) 4 dx_rule = Ok (bs (Face 0 0 0)) /\
  itf_matrices dx_fes [block_integ bs] dx_ports dx_forms = Ok B /\
  forall b x, mumps_mult dx_fes (fom_type Poisson) (bm_entry B) b x <-> solves dx_fes (bm_entry B) b x.
Proof.
  destruct (C106_diffusion 1 2 2 (-1) 4 dx_rule ltac:(lia)) as (bk & E & _). { intros p [<-|[]]. cbn. lra. }
  destruct (C140_poisson dx_fes dx_ports dx_forms 1 4 (fun _ => dx_rule) (fun _ => bk) dx_ports_fit dx_mats_fit dx_symmetric) as (B & EB & H).
  { intros p f [X|[]]. injection X as <- <-. split; [cbn; lia|]. split; [cbn; lia|]. exact E. }
  exists (fun _ => bk), B. auto.
Qed.
Example dx_elasticity : exists bs B, itf_matrices dx_fes [block_integ bs] dx_ports dx_forms = Ok B /\
  forall b x, mumps_mult dx_fes (fom_type LinElast) (bm_entry B) b x <-> solves dx_fes (bm_entry B) b x.
Proof.
  destruct (C106_elasticity 1 2 2 (-1) 4 dx_rule ltac:(lia) ltac:(lia)) as (bk & E & _).
  { intros p [<-|[]]. cbn. unfold has_lame. cbn. repeat split; try discriminate; lra. }
  destruct (C140_elasticity dx_fes dx_ports dx_forms 1 4 (fun _ => dx_rule) (fun _ => bk) dx_ports_fit dx_mats_fit dx_symmetric) as (B & EB & H).
  { intros p f [X|[]]. injection X as <- <-. exists 2, 2. repeat (split; [cbn; lia|]). split; [|exact E].
    intros p [<-|[]]. unfold has_lame. cbn. repeat split; discriminate. }
  exists (fun _ => bk), B. auto.
Qed.
Example dx_velocity : exists bs B, itf_matrices dx_fes [block_integ bs] dx_ports dx_forms = Ok B /\ symmetric_on dx_fes (bm_entry B).
Proof.
  destruct (C106_vector_diffusion 1 2 2 (-1) 4 dx_rule ltac:(lia) ltac:(lia)) as (bk & E & _).
  { intros p [<-|[]]. cbn. unfold has_mu. cbn. repeat split; try discriminate; lra. }
  destruct (C140_velocity dx_fes dx_ports dx_forms 1 4 (fun _ => dx_rule) (fun _ => bk) dx_ports_fit dx_mats_fit dx_symmetric) as (B & EB & H).
  { intros p f [X|[]]. injection X as <- <-. exists 2, 2. repeat (split; [cbn; lia|]). split; [|exact E].
    intros p [<-|[]]. cbn. split; discriminate. }
  exists (fun _ => bk), B. auto.
Qed.

(** The rows (2 0) and (1 2) declared symmetric: the vector (1 1) is returned for (3 3), which is (2 3) of the system. *)
Definition dx_matrix (p q : place) : R := if place_eqb p q then 2%R else if place_le q p then 1%R else 0%R.
Example dx_read : mumps_mult [Fes 2 (fun _ => [])] SYMMETRIC_POSITIVE_DEFINITE dx_matrix (fun _ => 3%R) (fun _ => 1%R) /\
  solves [Fes 2 (fun _ => [])] dx_matrix (fun p => if snd p =? 0 then 2%R else 3%R) (fun _ => 1%R).
Proof.
  split; intros [a i] [Ha Hi]; cbn in Ha, Hi; (destruct a; [|lia]); cbn in Hi; (destruct i as [|[|i]]; [| |lia]); unfold dx_matrix; cbn; lra.
Qed.

Example dx_types : rom_type None None = Ok None /\ rom_type (Some "direct"%string) None = Ok (Some SYMMETRIC_POSITIVE_DEFINITE) /\
  rom_type (Some "direct"%string) (Some "us"%string) = Ok (Some UNSYMMETRIC) /\ rom_type (Some "gmres"%string) None = Abort /\
  rom_type (Some "direct"%string) (Some "symmetric"%string) = Abort /\ rom_type (Some "minres"%string) (Some "symmetric"%string) = Ok None.
Proof. repeat split; reflexivity. Qed.
