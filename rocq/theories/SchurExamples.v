(** Concrete cases for the solve by the Schur complement. *)
From Coq Require Import Reals List Bool Lia Arith ZArith Lra.
From Verif Require Import Outcome LaBase BlockVec IntegModel LinalgModel MbModel MbSpec StdySpec StdyProofs SchurModel SchurSpec SchurProofs.
Import ListNotations.
Local Open Scope list_scope.
Local Open Scope R_scope.

(** One subdomain with one velocity and one pressure: 2 u + p = f, u = g. *)
Definition xs_vs (m v : nat) : nat := 1%nat.
Definition xs_off : outcome flow_off := flow_offsets 1 2 2 xs_vs xs_vs (fun _ => 1%nat).
Definition xs_fo : flow_off := match xs_off with Ok fo => fo | _ => FlowOff [] [] [] [] [] [] [] end.
Definition xs_M : fm := fun _ _ => 2.
Definition xs_B : fm := fun _ _ => 1.
Definition xs_cg (b x0 : vec) : vec * bool := ([vnth b 0 / 2], true).
(** The pressure solver: gives the solution of an equation with one half if it is one. *)
Definition xs_minres (op : vec -> outcome vec) (r x0 : vec) : outcome vec :=
  match op [2 * vnth r 0] with
  | Ok y => if list_eq_dec Req_EM_T y r then Ok [2 * vnth r 0] else Abort
  | _ => Abort
  end.
(** A pressure solver that gives up at once. *)
Definition xs_lazy (op : vec -> outcome vec) (r x0 : vec) : outcome vec := Ok x0.
Definition xs_vec (f g : R) : bvec := BVec [0%nat; 1%nat; 2%nat] [f; g].

Example xs_offsets : xs_off = Ok xs_fo /\ fo_u xs_fo = [0%nat; 1%nat] /\ fo_p xs_fo = [0%nat; 1%nat].
Proof. vm_compute. auto. Qed.

Example xs_shape f g : sub_shaped 1 2 xs_vs (xs_vec f g).
Proof.
  exists (fun _ => 1%nat). split; auto. split; [reflexivity|]. split; [reflexivity|]. split; [|reflexivity].
  intros i Hi. do 2 (destruct i; [reflexivity|]). lia.
Qed.
Example xs_cg_sound : cg_sound 1 xs_M 0 xs_cg.
Proof.
  intros b x0 x Lb _ E. unfold xs_cg in E. injection E as <-. split; auto. intros i Hi. assert (i = 0%nat) as -> by lia. cbn [rsum vnth nth]. unfold xs_M.
  replace (0 + 2 * (vnth b 0 / 2) - vnth b 0) with 0 by lra. rewrite Rabs_R0. lra.
Qed.
Example xs_injective : injective 1 xs_M.
Proof. intros x H i Hi. assert (i = 0%nat) as -> by lia. specialize (H 0%nat ltac:(lia)). cbn [rsum] in H. unfold xs_M in H. lra. Qed.
Example xs_sized : solver_sized 1 xs_minres.
Proof. intros op r x0 x _ _ E. unfold xs_minres in E. destruct (op _); try discriminate. destruct (list_eq_dec _ _ _); [|discriminate]. injection E as <-. auto. Qed.
Example xs_exact : solver_exact 1 xs_minres.
Proof. intros op r x0 x _ _ E. unfold xs_minres in E. destruct (op _) eqn:Eo; try discriminate. destruct (list_eq_dec _ _ _) as [->|]; [|discriminate]. injection E as <-. auto. Qed.
Example xs_lazy_sized : solver_sized 1 xs_lazy.
Proof. intros op r x0 x _ L E. unfold xs_lazy in E. injection E as <-. auto. Qed.

(** 2 u + p = 4, u = 1: one and two. *)
Example xs_run : exists v p, schur_solve 1 (fo_u xs_fo) (fo_p xs_fo) true xs_M xs_B xs_cg xs_cg xs_minres (xs_vec 4 1) (xs_vec 0 0) = Ok (xs_vec v p) /\ v = 1 /\ p = 2.
Proof.
  destruct xs_offsets as (_ & -> & ->). unfold schur_solve. cbn [nth].
  change (get_variable_vector 1 2 0 (xs_vec 4 1) (BVec [0%nat; 1%nat] (repeat 0 1))) with (Ok (BVec [0%nat; 1%nat] [4])).
  change (get_variable_vector 1 2 1 (xs_vec 4 1) (BVec [0%nat; 1%nat] (repeat 0 1))) with (Ok (BVec [0%nat; 1%nat] [1])).
  cbn [obind bv_dat]. unfold xs_cg at 1. cbn [negb]. unfold xs_minres, schur_mult. unfold xs_cg at 1.
  destruct (list_eq_dec Req_EM_T _ _) as [E|N].
  - cbn [obind]. unfold xs_cg. cbn [negb]. eexists. eexists. split; [reflexivity|]. cbn. unfold xs_B. split; lra.
  - exfalso. apply N. cbn. unfold xs_B. f_equal. lra.
Qed.

(** The same with the pressure solver that gives up: two and zero. *)
Example xs_lazy_run : exists v p, schur_solve 1 (fo_u xs_fo) (fo_p xs_fo) true xs_M xs_B xs_cg xs_cg xs_lazy (xs_vec 4 1) (xs_vec 0 0) = Ok (xs_vec v p) /\ v = 2 /\ p = 0.
Proof.
  destruct xs_offsets as (_ & -> & ->). unfold schur_solve. cbn [nth].
  change (get_variable_vector 1 2 0 (xs_vec 4 1) (BVec [0%nat; 1%nat] (repeat 0 1))) with (Ok (BVec [0%nat; 1%nat] [4])).
  change (get_variable_vector 1 2 1 (xs_vec 4 1) (BVec [0%nat; 1%nat] (repeat 0 1))) with (Ok (BVec [0%nat; 1%nat] [1])).
  cbn [obind bv_dat]. unfold xs_cg at 1. cbn [negb]. unfold xs_lazy. cbn [obind]. unfold xs_cg. cbn [negb].
  eexists. eexists. split; [reflexivity|]. cbn. unfold xs_B. split; lra.
Qed.

Example xs_ordered f g : ordered 1 xs_vs (xs_vec f g) [f; g].
Proof.
  split; [reflexivity|]. split; intros m k Hm Hk; unfold xs_vs in Hk; assert (m = 0%nat) as -> by lia; assert (k = 0%nat) as -> by lia; reflexivity.
Qed.

(** Constant pressures exert no force on two velocities of opposite sign. *)
Example xs_constants : constants_free 2 2 (fun q i => if (q =? i)%nat then 1 else -1) /\ ~ constants_free 1 1 xs_B.
Proof.
  split.
  - intros i Hi. destruct i as [|[|i]]; [| |lia]; cbn; lra.
  - intros H. specialize (H 0%nat ltac:(lia)). cbn in H. unfold xs_B in H. lra.
Qed.
