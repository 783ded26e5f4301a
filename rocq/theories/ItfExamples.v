(** Concrete cases for the theorems on interface assembly. *)
From Coq Require Import Reals List Bool Lia Arith ZArith Lra.
From Verif Require Import Outcome ListLemmas LaBase BlockVec MbModel MbSpec ItfModel ItfSpec ItfProofs.
Import ListNotations.
Local Open Scope nat_scope.

(** Two subdomains with 2 and 3 degrees of freedom, one of them flipped; a port with a face and one without transformations. *)
Definition xi_s0 : fespace := Fes 2 (fun e => if e =? 0 then [0; -2]%Z else []).
Definition xi_s1 : fespace := Fes 3 (fun e => if e =? 1 then [2; 0]%Z else [1]%Z).
Definition xi_fes : list fespace := [xi_s0; xi_s1].
Definition xi_port : itf_port := ItfPort 0 1 [None; Some (Face 0 1 0)].
Definition xi_g : mat_integ := fun f i j => FMat 2 2 (fun k l => INR (8 * i + 4 * j + 2 * k + l)).
Definition xi_F : vec_integ := fun f e1 e2 =>
  (map (fun k => elem_row (xi_g f) e1 e2 0 k) [0; 1], map (fun k => elem_row (xi_g f) e1 e2 1 k) [0; 1]).

Example xi_fit : ports_fit xi_fes [xi_port].
Proof.
  split.
  - intros p [<-|[]]. cbn. lia.
  - intros p f i H Hi d Hd. cbn in H. destruct H as [H|[]]. injection H as <- <-. destruct i as [|[|i]]; try lia; cbn in Hd; destruct Hd as [<-|[<-|[]]]; cbn; lia.
Qed.
Example xi_elem : elem_fits xi_fes xi_fes [xi_port] (fun _ => xi_g).
Proof. intros p f i j H Hi Hj. cbn in H. destruct H as [H|[]]. injection H as <- <-. destruct i as [|[|i]]; try lia; destruct j as [|[|j]]; try lia; cbn; lia. Qed.
Example xi_mats : mats_fit xi_fes xi_fes (zero_mats xi_fes xi_fes).
Proof. split; [reflexivity|]. intros [|[|i]] [|[|j]] Hi Hj; try (cbn in Hi, Hj; lia); eexists; (split; [reflexivity|]); split; reflexivity. Qed.

(** The flipped degree of freedom: entry (1, 2) of block (0, 1) is minus the one of the element. *)
Example xi_entry : exists B, itf_matrices xi_fes [xi_g] [xi_port] (zero_mats xi_fes xi_fes) = Ok B /\
  bm_entry B (0, 1) (1, 2) = (-6)%R /\ bm_entry B (0, 1) (1, 1) = 0%R /\ bm_entry B (1, 0) (0, 0) = 10%R.
Proof. eexists. split; [reflexivity|]. unfold bm_entry. cbn. change (Pos.to_nat 2) with 2. change (Pos.to_nat 1) with 1. cbn. repeat split; lra. Qed.
Example xi_mult : exists y, itf_add_mult xi_fes [xi_F] [xi_port] [1; 2; 3; 4; 5]%R [0; 0; 0; 0; 7]%R = Ok y /\ List.length y = 5.
Proof. eexists. split; reflexivity. Qed.

(** A reference port that the port looks like. *)
Example xi_like : like_ref xi_fes xi_fes [xi_s1; xi_s0] [xi_s1; xi_s0] [xi_g] xi_port (ItfPort 1 0 [None; Some (Face 0 1 5)]).
Proof.
  split; [cbn; lia|]. split; [cbn; lia|]. split.
  - intros [|[|i]] Hi; try lia; split; reflexivity.
  - constructor; [exact Logic.I|]. constructor; [|constructor]. split; [reflexivity|]. split; [reflexivity|]. intros g i j [<-|[]] _ _. split; [reflexivity|]. split; reflexivity.
Qed.
