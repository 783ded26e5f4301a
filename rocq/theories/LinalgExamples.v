(** Concrete cases for the theorems about src/linalg_utils.cpp, and the witnesses of the claims that fail. *)
From Coq Require Import Reals List Bool ZArith Lia Lra Arith.
From Verif Require Import Outcome ListLemmas LaBase LinalgModel LinalgSpec LinalgProofs LinalgSubProofs
  LinalgTensorProofs LinalgGsProofs LinalgBrentProofs.
Import ListNotations.
Local Open Scope R_scope.

(** ** Blocks *)

Definition blk : rmat := RMat 2 2 false [1; 2; 3; 4].
Definition glob : rmat := RMat 3 4 false [0; 0; 0; 0; 0; 0; 0; 0; 0; 0; 0; 0].

Example ex_set_block : set_block_mat blk 1 3 2 4 glob = Ok (RMat 3 4 false [0; 0; 0; 0;  0; 0; 1; 2;  0; 0; 3; 4]).
Proof. reflexivity. Qed.
(** A range smaller than the block takes its upper left corner. *)
Example ex_set_block_part : set_block_mat blk 0 1 3 4 glob = Ok (RMat 3 4 false [0; 0; 0; 1;  0; 0; 0; 0;  0; 0; 0; 0]).
Proof. reflexivity. Qed.
Example ex_set_block_vec : set_block_vec [7; 8] 1 3 [0; 0; 0; 0] = Ok [0; 7; 8; 0].
Proof. reflexivity. Qed.
Example ex_set_block_reject : set_block_vec [7; 8] 3 5 [0; 0; 0; 0] = Abort.
Proof. reflexivity. Qed.
Example ex_copy : copy_matrix (RMat 2 3 true [1; 2; 3; 4; 5; 6]) (DMat 0 0 []) = Ok (DMat 2 3 [1; 4; 2; 5; 3; 6]).
Proof. reflexivity. Qed.

(** A range wider than the block is accepted and takes an entry of the next row. *)
Lemma wide_range_accepted : exists b is ie js je g g',
  rm_wf b /\ rm_wf g /\ (Z.of_nat (rm_c b) < je - js)%Z /\ set_block_mat b is ie js je g = Ok g' /\
  rget b 1 0 <> rget g 0 2 /\ rget g' 0 2 = rget b 1 0.
Proof.
  exists blk, 0%Z, 1%Z, 0%Z, 3%Z, glob. eexists. split; [reflexivity|]. split; [reflexivity|]. split; [reflexivity|].
  split; [reflexivity|]. unfold rget, vnth. cbn. split; [lra|reflexivity].
Qed.
(** ... and one entry further the memory of the block is left. *)
Lemma wide_range_unsafe : exists b is ie g, (0 <= is < Z.of_nat (length g))%Z /\ (0 <= ie <= Z.of_nat (length g))%Z /\
  (length b <= length g)%nat /\ set_block_vec b is ie g = UB.
Proof.
  exists [7; 8], 0%Z, 3%Z, [0; 0; 0; 0]. cbn [length]. split; [lia|]. split; [lia|]. split; [lia|]. reflexivity.
Qed.

(** ** Selected rows *)

Definition m32 : dmat := DMat 3 2 [1; 2; 3; 4; 5; 6].   (* rows (1,4) (2,5) (3,6) *)
Example ex_rows : rows_of (dm_h m32) [2; 0; 2]%Z.
Proof. split; [discriminate|]. cbn. intros z [<-|[<-|[<-|[]]]]; lia. Qed.
Example ex_extract : extract m32 [2; 0; 2]%Z = DMat 3 2 [3; 1; 3; 6; 4; 6].
Proof. reflexivity. Qed.
Example ex_mult_sub : exists y, mult_sub_matrix m32 [2; 0]%Z [10; 100] [77; 78] = Ok y /\ vnth y 0 = 630 /\ vnth y 1 = 410.
Proof. eexists. split; [reflexivity|]. unfold vnth. cbn. split; lra. Qed.
Example ex_mult_t : exists y, mult_transpose_sub m32 [2; 0]%Z [10; 100] [77; 78] = Ok y /\ vnth y 0 = 130 /\ vnth y 1 = 460.
Proof. eexists. split; [reflexivity|]. unfold vnth. cbn. split; lra. Qed.
Example ex_add_mult_t : exists y, add_mult_transpose_sub m32 [2; 0]%Z [10; 100] [1; 2] = Ok y /\ vnth y 0 = 131 /\ vnth y 1 = 462.
Proof. eexists. split; [reflexivity|]. unfold vnth. cbn. split; lra. Qed.
Example ex_bad_row : mult_sub_matrix m32 [2; 3]%Z [10; 100] [77; 78] = Abort.
Proof. reflexivity. Qed.

(** The empty selection, which has a well defined (empty) product, reads outside of an empty array. *)
Lemma empty_rows_unsafe m x junk : length x = dm_w m -> mult_sub_matrix m [] x junk = UB.
Proof. intros L. unfold mult_sub_matrix. rewrite (proj2 (Nat.eqb_eq _ _) L). reflexivity. Qed.

(** ** Triple products *)

Definition a22 : dmat := DMat 2 2 [1; 0; 2; 1].   (* rows (1,2) (0,1) *)
Definition p32 : dmat := DMat 3 2 [1; 0; 1; 0; 1; 1].
Example ex_sub_rtap : exists m, add_sub_rtap m32 [2; 0]%Z a22 p32 [0; 1]%Z (DMat 2 2 [0; 0; 0; 0]) [9; 9] = Ok m /\
  dm_wf m /\ mget m 0 0 = 3 /\ mget m 1 0 = 6 /\ mget m 0 1 = 7 /\ mget m 1 1 = 16.
Proof. eexists. split; [reflexivity|]. unfold mget, vnth, dm_wf. cbn. repeat split; try lia; lra. Qed.

(** The operator of a matrix. *)
Definition op22 : operator := Op 2 2 (fun x => [vnth x 0 + 2 * vnth x 1; vnth x 1]).
Example ex_op : op_matrix op22 (mget a22).
Proof.
  intros x L. split; auto. cbn [op_h op_w op22] in *. destruct x as [|x0 [|x1 [|x2 x]]]; try discriminate L.
  intros i Hi. destruct i as [|[|i]]; [| |lia]; unfold mget, a22, vnth; cbn; ring.
Qed.
Example ex_rtap : exists m, rtap (DMat 2 1 [1; 1]) op22 (DMat 2 2 [1; 0; 0; 1]) (DMat 5 5 (repeat 3 25)) = Ok m /\
  dm_h m = 1%nat /\ dm_w m = 2%nat /\ mget m 0 0 = 1 /\ mget m 0 1 = 3.
Proof. eexists. split; [reflexivity|]. unfold mget, vnth, dot. cbn. repeat split; try lra. Qed.
Example ex_sparse_rtap : exists m, sparse_rtap (DMat 2 1 [1; 1]) op22 (DMat 2 2 [1; 0; 0; 1]) = Ok m /\
  sm_val m 0 0 = 1 /\ sm_val m 0 1 = 3.
Proof. eexists. split; [reflexivity|]. unfold sm_val, dot. cbn. split; lra. Qed.
Example ex_ctab : exists m, compute_ctab op22 (RMat 2 2 true [1; 0; 0; 1]) (RMat 2 1 true [1; 1]) false [0; 0] [0; 0; 0; 0] = Ok m /\
  rm_r m = 1%nat /\ rm_c m = 2%nat /\ rget m 0 0 = 1 /\ rget m 0 1 = 3.
Proof. eexists. split; [reflexivity|]. unfold rget, vnth. cbn. repeat split; lra. Qed.

(** A target of another size that is large enough keeps its old contents, to which the block is added. *)
Lemma stale_target : exists L rr A P pr M junk m,
  dm_wf L /\ dm_wf A /\ dm_wf P /\ dm_wf M /\ rows_of (dm_h L) rr /\ rows_of (dm_h P) pr /\
  dm_h A = length rr /\ dm_w A = length pr /\ length junk = length rr /\
  add_sub_rtap L rr A P pr M junk = Ok m /\
  mget m 0 0 - rap (length rr) (length pr) (sel L rr) (mget A) (sel P pr) 0 0 <> 0 /\
  dm_h M <> dm_w L.
Proof.
  exists (DMat 1 1 [1]), [0%Z], (DMat 1 1 [1]), (DMat 1 1 [1]), [0%Z], (DMat 2 1 [5; 6]), [9]. eexists.
  repeat (split; [first [reflexivity|unfold dm_wf; cbn; lia|split; [discriminate|cbn; intros z [<-|[]]; lia]]|]).
  split; [|cbn; lia]. unfold mget, rap, sel, mget, vnth. cbn. lra.
Qed.

(** ** Tensors *)

Definition t122 : tensor := Tensor 1 2 2 [1; 2; 3; 4].   (* T_0j0 = (1,2), T_0j1 = (3,4) *)
Example ex_contract : exists y, tensor_contract t122 [2] [10; 100] [9; 9] = Ok y /\ vnth y 0 = 420 /\ vnth y 1 = 860.
Proof. eexists. split; [reflexivity|]. unfold vnth. cbn. split; lra. Qed.
Definition t221 : tensor := Tensor 2 2 1 [1; 2; 3; 4].   (* T_000 = 1, T_100 = 2, T_010 = 3, T_110 = 4 *)
Example ex_tangent : exists m1 m2, tensor_add_scaled_mult_transpose t221 1 [1; 1] 0 (DMat 1 2 [0; 0]) = Ok m1 /\
  tensor_add_scaled_mult_transpose t221 1 [1; 1] 1 m1 = Ok m2 /\ mget m2 0 0 = 7 /\ mget m2 0 1 = 13.
Proof. eexists. eexists. split; [reflexivity|]. split; [reflexivity|]. unfold mget, vnth. cbn. split; lra. Qed.
Example ex_axis : tensor_add_mult_transpose t221 [1; 1] 2 (DMat 1 2 [0; 0]) = Abort.
Proof. reflexivity. Qed.
Example ex_tensor_mult : exists m, tensor_mult t122 [1; 10] (DMat 1 2 [5; 5]) = Ok m /\ mget m 0 0 = 31 /\ mget m 0 1 = 42.
Proof. eexists. split; [reflexivity|]. unfold mget, vnth. cbn. split; lra. Qed.

Lemma on_j_wrong : exists T x M m,
  t_wf T /\ dm_wf M /\ length x = t_j T /\ dm_h M = t_i T /\ dm_w M = t_k T /\ tensor_add_mult_on_j T x M = Ok m /\
  mget m 0 0 <> mget M 0 0 + rsum (t_j T) (fun j => tget T 0 j 0 * vnth x j).
Proof.
  exists t122, [1; 2], (DMat 1 2 [0; 0]). eexists.
  repeat (split; [first [reflexivity|unfold dm_wf; cbn; lia]|]).
  unfold mget, tget, vnth. cbn. lra.
Qed.

(** ** Gram-Schmidt *)

Definition gs_cols : list vec := [[3; 4]; [1; 0]].
Example gs_wf : cols_wf 2 gs_cols.
Proof. intros v [<-|[<-|[]]]; reflexivity. Qed.
Example gs_indep : lin_indep 2 gs_cols.
Proof.
  intros a H. pose proof (H 0%nat ltac:(lia)) as H0. pose proof (H 1%nat ltac:(lia)) as H1.
  unfold gs_cols, colv, vnth in H0, H1. cbn in H0, H1.
  intros k Hk. destruct k as [|[|k]]; [lra|lra|cbn in Hk; lia].
Qed.
Example gs_runs : exists q, mgs 2 gs_cols = Ok q /\ orthonormal 2 q.
Proof.
  destruct (mgs_accepts 2 gs_cols gs_wf gs_indep) as (q & E). exists q. split; auto.
  apply (mgs_qr 2 gs_cols q gs_wf E).
Qed.

Definition basis1 : list vec := [[1; 0; 0]; [0; 2; 0]].
Example ex_orthogonal_basis : orthogonal_basis 3 basis1.
Proof.
  split; unfold colv, dot, vnth, basis1; cbn.
  - intros [|[|i]] H; cbn; [lra|lra|lia].
  - intros [|[|i]] [|[|j]] H1 H2 N; cbn; try lra; lia.
Qed.

(** Against a basis that is not orthogonal, the removal of the second direction brings back the first. *)
Definition skew : list vec := [[1; 0; 0]; [1; 1; 0]].
Definition new1 : list vec := [[0; 1; 1]].
Lemma skew_not_orthogonal : exists n mat1 mat q,
  cols_wf n mat1 /\ cols_wf n mat /\ lin_indep n (mat1 ++ mat) /\ orthonormalize n mat1 n mat = Ok q /\
  ~ orthogonal_to n mat1 q.
Proof.
  assert (W1 : cols_wf 3 skew) by (intros v [<-|[<-|[]]]; reflexivity).
  assert (Wn : cols_wf 3 new1) by (intros v [<-|[]]; reflexivity).
  assert (N1 : dot 3 [1; 0; 0] [1; 0; 0] <> 0) by (unfold dot, vnth; cbn; lra).
  assert (N2 : dot 3 [1; 1; 0] [1; 1; 0] <> 0) by (unfold dot, vnth; cbn; lra).
  destruct (proj_step 3 skew new1 0 ltac:(cbn; lia) N1) as (c1 & E1 & L1 & V1).
  destruct (proj_step 3 skew c1 1 ltac:(cbn; lia) N2) as (c2 & E2 & L2 & V2).
  assert (Lc : length c2 = 1%nat) by (rewrite L2, L1; reflexivity).
  specialize (V1 0%nat ltac:(cbn; lia)). specialize (V2 0%nat ltac:(rewrite L1; cbn; lia)).
  assert (C2 : forall i, (i < 3)%nat -> vnth (colv c2 0) i = vnth [-1/2; 1/2; 1] i).
  { rewrite V2, V1. unfold colv, skew, new1, vadd, dot, vnth. cbn. intros [|[|[|i]]] Hi; [| | |lia]; cbn; field. }
  assert (W2 : cols_wf 3 c2).
  { apply cols_wf_colv. intros i Hi. rewrite Lc in Hi. destruct i; [|lia]. rewrite V2, V1. reflexivity. }
  destruct (mgs_accepts 3 c2 W2) as (q & Eq).
  { intros a H k Hk. rewrite Lc in *. destruct k; [|lia]. specialize (H 2%nat ltac:(lia)). cbn [rsum] in H.
    rewrite C2 in H by lia. unfold vnth in H. cbn in H. lra. }
  exists 3%nat, skew, new1, q. split; auto. split; auto. split; [|split].
  - intros a H. pose proof (H 0%nat ltac:(lia)) as H0. pose proof (H 1%nat ltac:(lia)) as H1. pose proof (H 2%nat ltac:(lia)) as H2.
    unfold skew, new1, colv, vnth in H0, H1, H2. cbn in H0, H1, H2.
    intros k Hk. destruct k as [|[|[|k]]]; [lra|lra|lra|cbn in Hk; lia].
  - rewrite orthonormalize_split. cbn [length skew].
    unfold ofor. cbn [seq ofold]. fold skew.
    rewrite E1. cbn [obind]. rewrite E2. cbn [obind]. exact Eq.
  - intros O. destruct (mgs_qr 3 c2 q W2 Eq) as (Lq & Wq & _ & T & Tp & _ & Tv).
    rewrite Lc in *.
    assert (Iq : In (colv q 0) q) by (unfold colv; apply nth_In; lia).
    specialize (O [1; 0; 0] (colv q 0) (or_introl eq_refl) Iq).
    assert (D : dot 3 [1; 0; 0] (colv c2 0) = T 0%nat 0%nat * dot 3 [1; 0; 0] (colv q 0)).
    { unfold dot. rewrite <- rsum_scal. apply rsum_ext. intros i Hi. rewrite (Tv 0%nat i) by lia. cbn [rsum]. ring. }
    rewrite O in D. unfold dot in D. cbn [rsum] in D. rewrite !C2 in D by lia. unfold vnth in D. cbn in D. lra.
Qed.

(** ** Line search *)

(** A parabola with its minimum at 2: the search brackets it between 1 and 4. *)
Definition parab (t : R) : R := (t - 2) * (t - 2).
Example ex_brent_safe : forall np stop propose, brent 0 10 np 2 parab stop propose 1 <> Some UB.
Proof.
  intros np stop propose.
  apply (brent_safe_iff 0 10 np 2 parab stop propose 1 1); [lia| |].
  - cbn [brent_shrink]. rewrite (proj2 (rltb_false _ _)); auto. unfold parab. lra.
  - exists 3%nat. split; [lia|]. unfold trial, parab. cbn. lra.
Qed.
Example ex_brent_returns : exists b, brent 0 10 0 2 parab (fun _ => true) (fun _ => 0) 1 = Some (Ok b) /\ parab b <= parab 0.
Proof.
  destruct (brent_cases 0 10 0 2 parab (fun _ => true) (fun _ => 0) 1 1) as [[_ [H|H]]|[H _]]; try lia.
  - cbn [brent_shrink]. rewrite (proj2 (rltb_false _ _)); auto. unfold parab. lra.
  - exact H.
  - exfalso. unfold brent in H. cbn [brent_shrink] in H. rewrite (proj2 (rltb_false _ _)) in H by (unfold parab; lra).
    injection H as H. revert H. cbn.
    repeat (match goal with
    | |- context [rltb ?x ?y] => first
        [ rewrite (proj2 (rltb_true x y)) by (unfold parab; lra)
        | rewrite (proj2 (rltb_false x y)) by (unfold parab; lra) ]
    end; cbn). discriminate.
  - exfalso. specialize (H 3%nat ltac:(lia)). unfold trial, parab in H. cbn in H. lra.
Qed.
