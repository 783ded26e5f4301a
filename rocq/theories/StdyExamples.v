(** Concrete cases for the theorems on steady solves. *)
From Coq Require Import Reals List Bool Lia Arith ZArith Lra String.
From Verif Require Import Outcome ListLemmas LaBase BlockVec LinalgModel LinalgSpec LinalgBrentProofs RomModel RomSpec RomExamples MbModel MbSpec MbExamples NsTensorModel NsTensorSpec CgoModel
  StdyModel StdySpec.
Import ListNotations.
Local Open Scope list_scope.
Local Open Scope R_scope.

(** Two subdomains with 6 velocities and 3 pressures; the constant pressures exert no force. The forms square the velocities. *)
Definition xst_op : nsop := NsOp [0; 2; 6]%nat 9 (fun i j => if (i =? j)%nat then 2 else 0) (fun i j => if (i <? 3)%nat then nth j [1; -1; 0] 0 else 0)
  (fun j i => if (i <? 3)%nat then nth j [1; -1; 0] 0 else 0) None.
Definition xst_hs (m : nat) (v : vec) : vec := map (fun x => x * x) v.
Lemma xst_ok : fom_ok xst_op 2 (fun m => xm_size m 0).
Proof. split; [repeat split; intros [|[|i]] H; try lia; reflexivity|vm_compute; lia]. Qed.
Lemma xst_force : no_force xst_op 6 9.
Proof. intros i Hi. cbn [xst_op no_Bt]. destruct (i <? 3)%nat; cbn; ring. Qed.
Lemma xst_len m v : (m < 2)%nat -> List.length v = xm_size m 0 -> List.length (xst_hs m v) = xm_size m 0.
Proof. intros _ H. unfold xst_hs. rewrite map_length. exact H. Qed.
Definition xst_next (xs : list vec) (r : vec) : outcome vec := Ok (vscale (/ 2) r).
Lemma xst_next_ok xs r : List.length r = 9%nat -> exists d, xst_next xs r = Ok d /\ List.length d = 9%nat.
Proof. intros H. eexists. split; [reflexivity|]. unfold vscale. rewrite map_length. exact H. Qed.

(** A restart file with the nine unknowns. *)
Definition xst_d : vec := [1; 2; 10; 3; 4; 5; 6; -20; 10].
Definition xst_fs : files := fput (fun _ => None) "sol.h5" (SFile (Some ([9%nat], xst_d)) None None).
Lemma xst_load : load_solution xst_fs "sol.h5" (bv_dat xm_sub) = Ok xst_d.
Proof. reflexivity. Qed.
Lemma xst_shaped d : List.length d = 9%nat -> sub_shaped 2 2 xm_size (BVec (bv_off xm_sub) d).
Proof. intros H. destruct xm_sub_shaped as (s & (S1 & S2 & S3 & S4) & S5). exists s. repeat split; auto. Qed.
Lemma xst_ordered : ordered 2 xm_size (BVec (bv_off xm_sub) xst_d) [1; 2; 3; 4; 5; 6; 10; -20; 10].
Proof.
  split; [reflexivity|]. split; intros m k Hm Hk; (destruct m as [|[|m]]; [| |lia]); cbn in Hk; do 4 (destruct k as [|k]; [first [lia|reflexivity]|]); lia.
Qed.

(** Two quadratic equations: one Newton step from 3 towards 2. *)
Definition xst_F (x : vec) : outcome vec := Ok (map (fun a => a * a) x).
Definition xst_newton : list vec -> vec -> outcome vec := newton_step (fun x => Ok x) (fun x r => map (fun i => vnth r i / (2 * vnth x i)) (seq 0 (List.length x))).
Lemma xst_one_step : exists z, newton 0 1 1 xst_F xst_newton [4] [3] = Ok ([z], true) /\ z = 13 / 6.
Proof.
  unfold newton, residual, xst_F. cbn [map obind List.length Nat.eqb oguard]. unfold vadd. cbn [combine map fst snd].
  cbn [newton_loop fst snd]. unfold norm, dot. cbn [rsum List.length]. unfold vnth. cbn [nth].
  rewrite (proj2 (rltb_true _ _)).
  2:{ rewrite Rmult_0_l, Rmax_right by lra. rewrite Rplus_0_l. rewrite sqrt_square by lra. lra. }
  unfold xst_newton at 1, newton_step. cbn [obind map seq List.length Nat.eqb oguard combine]. unfold residual. cbn [map obind List.length Nat.eqb oguard]. unfold vadd. cbn [combine map fst snd].
  unfold norm, dot. cbn [rsum List.length]. unfold vnth. cbn [nth].
  change (1 =? 1)%nat with true. cbn [oguard obind List.length rsum nth]. rewrite (proj2 (rltb_false _ _)).
  2:{ rewrite Rmult_0_l, Rmax_right by lra. rewrite Rplus_0_l. rewrite sqrt_square by lra. lra. }
  eexists. split; [reflexivity|]. lra.
Qed.

(** Options of reduced solves. *)
Definition xst_rc (prec : string) (restart : bool) : rcfg := RCfg "direct" "us" prec "newton" restart 1 0 0 0.
Definition xst_Fr (x : vec) : outcome vec := Ok x.
Lemma xst_Fr_ok n x : List.length x = n -> exists y, xst_Fr x = Ok y /\ List.length y = n.
Proof. intros H. exists x. auto. Qed.
Definition xst_nr (t : lin_type) (xs : list vec) (r : vec) : outcome vec := Ok r.
Definition xst_cc : cgcfg := CgCfg 2 3 4 0 0 (fun _ => true) (fun _ => 0).
Definition xst_co : cgop := CgOp 6 (fun u => u) (fun _ r => r).
