(** One unknown: find u with u = 3, from 0 and from 3. *)
From Coq Require Import Reals List Bool ZArith Lia Lra Arith.
From Verif Require Import Outcome ListLemmas LaBase LinalgModel LinalgSpec LinalgProofs LinalgGsProofs LinalgBrentProofs CgoModel CgoSpec CgoProofs.
Import ListNotations.
Local Open Scope R_scope.

Definition xcg_op : cgop := CgOp 1 (fun u => [vnth u 0]) (fun _ r => [vnth r 0]).
Definition xcg_cfg : cgcfg := CgCfg 2 3 4 0 0 (fun _ => true) (fun _ => 0).

Lemma xcg_obj b u : objective xcg_op [b] [u] = (u - b) * (u - b).
Proof. unfold objective, dot. cbn. ring. Qed.
Lemma xcg_grad b u : gradient xcg_op [b] [u] = [2 * (u - b)].
Proof. unfold gradient. cbn. f_equal. ring. Qed.
Lemma req_no x y : x <> y -> req x y = false.
Proof. intros H. unfold req. destruct (Req_EM_T x y); [contradiction|reflexivity]. Qed.
Lemma req_yes x y : x = y -> req x y = true.
Proof. intros H. unfold req. destruct (Req_EM_T x y); [reflexivity|contradiction]. Qed.

(** The first line search finds the minimum. *)
Lemma xcg_search : line_search xcg_cfg xcg_op [3] (Some [6]) [0] (Some (/ 2)) = Some (Ok (/ 2 * 2 ^ 0, [0 + / 2 * 2 ^ 0 * 6])).
Proof.
  unfold line_search. cbn [cg_fuel cg_nb cg_np cg_golden cg_stop cg_propose xcg_cfg]. set (phi := fun t => objective xcg_op [3] (vadd [0] t [6])).
  assert (P : forall t, phi t = (6 * t - 3) * (6 * t - 3)). { intros t. unfold phi. cbn [vadd combine map fst snd]. rewrite xcg_obj. ring. }
  clearbody phi. assert (Es : brent_shrink 0 2 phi (/ 2) = Some (/ 2)). { cbn [brent_shrink]. rewrite !P. rewrite (proj2 (rltb_false _ _)) by lra. reflexivity. }
  assert (B : brent 0 4 0 2 phi (fun _ => true) (fun _ => 0) (/ 2) = Some (Ok (/ 2 * 2 ^ 0))).
  { unfold brent. rewrite Es. cbn. change (Pos.to_nat 1) with 1%nat. cbn. rewrite ?P.
    repeat (first [rewrite (proj2 (rltb_false _ _)) by lra | rewrite (proj2 (rltb_true _ _)) by lra]; cbn; rewrite ?P). do 2 f_equal. ring. }
  rewrite B. reflexivity.
Qed.
Example xcg_runs : cg_mult xcg_cfg xcg_op 1 (/ 10) 0 5 false [3] [0] = Some (Ok ([0 + / 2 * 2 ^ 0 * 6], true)).
Proof.
  unfold cg_mult. rewrite xcg_grad. cbn [vscale map]. replace (-1 * (2 * (0 - 3))) with 6 by ring.
  assert (D : dot 1 [6] [6] = 6 * 6) by (unfold dot; cbn; ring). rewrite D. rewrite req_no by lra. rewrite sqrt_square by lra. change (cg_ib xcg_cfg) with 3. replace (3 / 6) with (/ 2) by field.
  cbn [cg_loop]. pose proof xcg_search as HS. unfold vec in HS |- *. rewrite HS. clear HS. rewrite xcg_obj. replace (0 + / 2 * 2 ^ 0 * 6 - 3) with 0 by (cbn; field). rewrite Rmult_0_l, sqrt_0. rewrite (proj2 (rltb_true 0 (/ 10))) by lra. reflexivity.
Qed.
(** From the solution there is no direction to go. *)
Example xcg_at_rest : dot 1 (gradient xcg_op [3] [3]) (gradient xcg_op [3] [3]) = 0 /\ objective xcg_op [3] [3] = 0.
Proof. rewrite xcg_grad, xcg_obj. unfold dot. cbn. split; ring. Qed.
