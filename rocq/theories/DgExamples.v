(** Two triangles that share the edge from (0,0) to (0,1), seen from its middle; what the theorems say about them. *)
From Coq Require Import Reals List Bool Lia Lra Arith ZArith.
From Verif Require Import Outcome ListLemmas LaBase EqpSpec IntegModel IntegProofs DgModel DgSpec DgAddProofs DgKernelProofs DgItfProofs DgFaceProofs DgRhsProofs DgFormProofs DgProperties.
Import ListNotations.
Local Open Scope R_scope.

Definition tri_d : fm := fun i l => match i, l with O, _ => -1 | S O, O => 1 | S (S O), S O => 1 | _, _ => 0 end.
(** Vertices (0,0), (1,0), (0,1) and (0,0), (0,1), (-1,0) *)
Definition ex_1 : side := Side (fun i => match i with O => 1 / 2 | S O => 0 | _ => 1 / 2 end) tri_d
  (fun i j => if (i =? j)%nat then 1 else 0) 1 (Some 3) (Some 2) None.
Definition ex_2 : side := Side (fun i => match i with O => 1 / 2 | S O => 1 / 2 | _ => 0 end) tri_d
  (fun i j => match i, j with O, S O => 1 | S O, O => -1 | _, _ => 0 end) 1 (Some 5) (Some 4) None.
Definition ex_p : dpt := DPt 1 (fun m => match m with O => -1 | _ => 0 end) ex_1 ex_2.

Ltac ev := cbn [ex_p ex_1 ex_2 tri_d d_w d_nor d_1 d_2 sd_shape sd_dshape sd_adj sd_W sd_mu sd_lam sd_mq val rsum Nat.eqb].

Example ex_hyps : (has_mu (d_1 ex_p) /\ has_mu (d_2 ex_p)) /\ (has_lame (d_1 ex_p) /\ has_lame (d_2 ex_p)) /\ sd_W (d_1 ex_p) <> 0 /\ sd_W (d_2 ex_p) <> 0.
Proof. unfold has_mu, has_lame. ev. repeat split; try discriminate; lra. Qed.

Example ex_unity : unity 2 3 (d_1 ex_p) /\ unity 2 3 (d_2 ex_p).
Proof.
  unfold unity. ev. repeat split; try lra; intros l Hl; destruct l as [|[|l]]; try lia; cbn [rsum]; lra.
Qed.

Example ex_good : (good_side 2 (d_nor ex_p) (d_1 ex_p) /\ good_side 2 (d_nor ex_p) (d_2 ex_p)) /\ good_lame (d_1 ex_p) /\ good_lame (d_2 ex_p).
Proof. unfold good_side, good_lame, stiff, sq. ev. repeat split; lra. Qed.

(** [u = x] has no jump; its flux is seen by a function with a jump. *)
Definition ux1 : fv := fun i => match i with S O => 1 | _ => 0 end.
Definition ux2 : fv := fun i => match i with S (S O) => -1 | _ => 0 end.
Example ex_trace : trace 3 (d_1 ex_p) ux1 = trace 3 (d_2 ex_p) ux2.
Proof. unfold trace, ux1, ux2. ev. lra. Qed.
Example ex_flux : flux 2 3 (d_nor ex_p) (d_1 ex_p) ux1 = -3 /\ flux 2 3 (d_nor ex_p) (d_2 ex_p) ux2 = -5.
Proof. unfold flux, slope, ux1, ux2. ev. split; field. Qed.

Example ex_form b sigma kappa : diff_itf 2 3 3 true sigma kappa [ex_p] = Ok b -> form 3 3 3 3 b ux1 ux2 (fun i => match i with O => 1 | _ => 0 end) (fun _ => 0) = 2.
Proof.
  intros E. destruct (C106_consistent 2 3 3 sigma kappa [ex_p] ux1 ux2 (fun i => match i with O => 1 | _ => 0 end) (fun _ => 0)) as (H & _); [lia|lia|].
  rewrite (H b); auto.
  - rewrite lsum_cons. destruct ex_flux as (-> & ->). unfold trace. ev. change (lsum _ []) with 0. lra.
  - intros p [<-|[]]. split; [apply ex_hyps|apply ex_trace].
Qed.

(** A jump is penalized. *)
Example ex_penalty b : diff_itf 2 3 3 true 1 10 [ex_p] = Ok b -> form 3 3 3 3 b (fun _ => 1) (fun _ => 0) (fun _ => 1) (fun _ => 0) = 40.
Proof.
  intros E. destruct (C106_diffusion 2 3 3 1 10 [ex_p]) as (b' & E' & _ & F); [lia| |].
  - intros p [<-|[]]. apply ex_hyps.
  - rewrite E in E'. injection E' as <-. rewrite F. unfold ip_form. rewrite lsum_cons. change (lsum _ []) with 0. unfold ip_point, flux, slope, stiff, sq, trace. ev. field.
Qed.

(** The two integrators of the vector equation on this face; a boundary face with values [(x, y)] *)
Example ex_parts : exists m b, vd_face 2 3 3 (-1) 10 [ex_p] = Ok m /\ ivd_itf 2 3 3 true true (-1) 10 [ex_p] = Ok b /\ sized 6 6 6 6 b /\ parts 6 6 6 6 m b.
Proof. apply (C105_vector_diffusion 2 3 3); [lia|lia|]. intros p [<-|[]]. split; discriminate. Qed.

Definition uxy : fv := fun i => match i with S O => 1 | S (S (S (S (S O)))) => 1 | _ => 0 end.
Definition ex_b : bpt := BPt 1 (d_nor ex_p) ex_1 (fun c => match c with O => 0 | _ => 1 / 2 end) 1 None.
Example ex_same : Forall2 (same_point 2 (fun p c => trace 3 (d_1 p) (comp 3 c uxy))) [ex_p] [ex_b].
Proof.
  constructor; [|constructor]. unfold same_point. cbn [ex_b b_w b_side b_nor b_val]. repeat split; auto. intros c Hc.
  destruct c as [|[|c]]; try lia; unfold trace, comp, uxy; ev; cbn [Nat.mul Nat.add]; lra.
Qed.
Example ex_nitsche : exists m r, vd_face 2 3 0 (-1) 10 [ex_p] = Ok m /\ vdl_rhs 2 3 (-1) 10 [ex_b] = Ok r /\
  paired 6 6 m (fun i => match i with O => 1 | _ => 0 end) uxy - against 6 r (fun i => match i with O => 1 | _ => 0 end) = 3 / 2.
Proof.
  destruct (C107_consistent 2 3 (-1) 10 [ex_p] [ex_b] uxy (fun i => match i with O => 1 | _ => 0 end)) as (m & r & E & E' & F); [lia| |apply ex_same|].
  - intros p [<-|[]]. split; apply ex_hyps.
  - exists m, r. split; [auto|]. split; [auto|]. etransitivity; [exact F|]. cbn [rsum]. rewrite !lsum_cons. change (lsum _ []) with 0.
    unfold flux, slope, trace, comp, uxy. ev. cbn [Nat.mul Nat.add]. field.
Qed.

(** Incompressibility across the face: one function of velocity and pressure on each side *)
Definition ex_n : npt := NPt 2 (fun m => match m with O => -1 | _ => 0 end) (fun _ => 1) (fun _ => 1) (fun _ => 1) (fun _ => 1).
Example ex_flux_parts : exists m b, nf_face 2 1 1 1 1 true [ex_n] = Ok m /\ inf_itf 2 1 1 1 1 true true [ex_n] = Ok b /\ sized 1 1 2 2 b /\ parts 1 1 2 2 m b.
Proof. apply (C105_normal_flux 2 1 1 1 1); lia. Qed.
Example ex_jump : exists b, inf_itf 2 1 1 1 1 true true [ex_n] = Ok b /\ form 1 1 2 2 b (fun _ => 3) (fun _ => 1) (fun _ => 1) (fun _ => 0) = -2.
Proof.
  destruct (C108_interface 2 1 1 1 1 [ex_n]) as (b & E & F); try lia. exists b. split; [auto|]. etransitivity; [apply F|]. rewrite lsum_cons. change (lsum _ []) with 0.
  unfold nprs, nvel, comp, ex_n. cbn [n_w n_nor n_tr1 n_tr2 n_te1 n_te2 rsum]. field.
Qed.

(** Four boundary elements with attributes 1, 2, 3, 2 (the last without a face), two integrators *)
Example ex_faces : mb_faces 3 [Some [1; 0; 0]%Z; Some [0; 1; 0]%Z] [(1, true); (2, true); (3, true); (2, false)]%nat = Ok [(0, 0); (1, 1)]%nat.
Proof. vm_compute. reflexivity. Qed.
Example ex_faces_all : mb_faces 3 [Some [1; 0; 0]%Z; None] [(1, true); (2, true)]%nat = Ok [(0, 0); (0, 1); (1, 1)]%nat.
Proof. vm_compute. reflexivity. Qed.
