(** C131: the nonlinear conjugate gradient minimization. *)
From Coq Require Import Reals List Bool ZArith Lia Lra Arith.
From Verif Require Import Outcome ListLemmas LaBase LinalgModel LinalgSpec LinalgProofs LinalgGsProofs LinalgBrentProofs CgoModel CgoSpec CgoProofs CgoExamples.
Import ListNotations.
Local Open Scope R_scope.

(** A run that returns has followed conjugate directions along which the misfit never increased. It says it has converged exactly if
    the last iterate meets a tolerance, and no earlier one does; otherwise it has made all its iterations and none meets one. *)
Theorem C131_iterations : forall c o n atol rtol max_iter rhs u0 u fl, (1 <= cg_nb c)%nat -> (forall v r, length v = n -> length (op_gradt o v r) = n) ->
  (forall v, length v = n -> length (op_mult o v) = length rhs) -> length u0 = n ->
  cg_mult c o n atol rtol max_iter false rhs u0 = Some (Ok (u, fl)) ->
  let J := misfit (op_m o) (op_mult o) rhs in
  let met v := accepted atol rtol (sqrt (J u0)) (sqrt (J v)) in
  let G v := op_gradt o v (vscale 2 (vadd (op_mult o v) (-1) rhs)) in
  exists N Us Ds, cg_path n J G u0 N Us Ds /\ Us N = u /\ (N <= max_iter)%nat /\ J u <= J u0 /\ (forall k, (0 < k < N)%nat -> ~ met (Us k)) /\
    (if fl then (0 < N)%nat /\ met u else N = max_iter /\ ((0 < N)%nat -> ~ met u)).
Proof.
  intros c o n atol rtol max_iter rhs u0 u fl Hnb Hg Hm L E J met G.
  assert (EJ : forall v, length v = n -> objective o rhs v = J v).
  { intros v Hv. unfold objective, J, misfit, dot. apply rsum_ext. intros i _. rewrite vadd_nth by (rewrite Hm; auto). ring. }
  unfold cg_mult in E. set (b0 := if req _ 0 then None else _) in E. clearbody b0.
  destruct (cg_loop_ok c o n rhs Hnb Hg atol rtol (sqrt (objective o rhs u0)) max_iter 0 u0 (vscale (-1) (gradient o rhs u0)) b0 false u fl L) as (N & Us & Ds & P & Er & Hn & Fl); [|clear E|exact E|].
  - rewrite vscale_length. apply Hg, L.
  - intros F i Hi. rewrite vscale_nth, (F i Hi). ring.
  - destruct P as [P0 P1 P2 P3 P4 P5 P6].
    assert (P2' : forall k, (k < N)%nat -> J (Us (S k)) <= J (Us k)) by (intros k Hk; rewrite <- !EJ by (apply P1; lia); apply P2, Hk).
    assert (Mono : forall k, (k <= N)%nat -> J (Us k) <= J u0). { induction k as [|k IH]; intros Hk; [rewrite P0; lra|]. specialize (P2' k Hk). specialize (IH ltac:(lia)). lra. }
    assert (EA : forall k, (k <= N)%nat -> acc o rhs atol rtol (sqrt (objective o rhs u0)) (Us k) <-> met (Us k)).
    { intros k Hk. unfold acc, met. rewrite !EJ by (auto; apply P1; lia). reflexivity. }
    exists N, Us, Ds. split.
    { split; auto. intros HN i. rewrite P5 by exact HN. rewrite vscale_nth. unfold G, gradient. ring. }
    split; [exact Er|]. split; [exact Hn|]. split; [rewrite <- Er; apply Mono; lia|].
    destruct Fl as [(-> & F2 & F3 & F4)|(-> & F2 & F3)].
    + split; [intros k Hk Q; apply (F4 k Hk), EA; [lia|exact Q]|]. split; [exact F2|]. rewrite <- Er in *. apply EA; [lia|exact F3].
    + split; [intros k Hk Q; apply (F3 k ltac:(lia)), EA; [lia|exact Q]|]. split; [exact F2|]. intros HN Q. rewrite <- Er in Q. apply (F3 N ltac:(lia)), EA; [lia|exact Q].
Qed.
Print Assumptions C131_iterations.

(** From any point with zero gradient, the minimum in particular, the run leaves the record of its line search. *)
Theorem C131_at_rest : forall c o n atol rtol max_iter conv rhs u0, (1 <= max_iter)%nat ->
  (forall i, (i < n)%nat -> vnth (gradient o rhs u0) i = 0) -> cg_mult c o n atol rtol max_iter conv rhs u0 = Some UB.
Proof.
  intros c o n atol rtol [|k] conv rhs u0 Hk H; [lia|]. unfold cg_mult.
  assert (Z : dot n (vscale (-1) (gradient o rhs u0)) (vscale (-1) (gradient o rhs u0)) = 0).
  { unfold dot. rewrite <- (rsum_zero n). apply rsum_ext. intros i Hi. rewrite vscale_nth, (H i Hi). ring. }
  rewrite (req_yes _ _ Z). reflexivity.
Qed.
Print Assumptions C131_at_rest.

(** So starting at the solution, as a restart does, is not safe. *)
Theorem C131_solution_refuted : exists c o rhs u0, (1 <= cg_nb c)%nat /\ op_mult o u0 = rhs /\ cg_mult c o 1 (/ 10) 0 5 false rhs u0 = Some UB.
Proof.
  exists xcg_cfg, xcg_op, [3], [3]. split; [cbn; lia|]. split; [reflexivity|]. apply C131_at_rest; [lia|]. intros i Hi. rewrite xcg_grad. destruct i; [|lia]. cbn. ring.
Qed.
Print Assumptions C131_solution_refuted.

(** The flag is only ever raised: an optimizer that has converged once says so after a run that has not. *)
Theorem C131_flag_refuted : exists c o rhs u0 u, (1 <= cg_nb c)%nat /\ cg_mult c o 1 (/ 10) 0 5 false rhs u0 = Some (Ok (u, true)) /\
  exists rhs', cg_mult c o 1 (/ 10) 0 0 true rhs' u = Some (Ok (u, true)) /\ ~ accepted (/ 10) 0 (sqrt (misfit 1 (op_mult o) rhs' u)) (sqrt (misfit 1 (op_mult o) rhs' u)).
Proof.
  exists xcg_cfg, xcg_op, [3], [0]. eexists. split; [cbn; lia|]. split; [exact xcg_runs|]. exists [0]. split; [reflexivity|].
  assert (E : misfit 1 (op_mult xcg_op) [0] [0 + / 2 * 2 ^ 0 * 6] = 3 * 3) by (unfold misfit; cbn; field).
  rewrite E. rewrite sqrt_square by lra. intros [H|[_ H]]; lra.
Qed.
Print Assumptions C131_flag_refuted.
