(** Properties of the dense linear algebra (src/linalg_utils.cpp). *)
From Coq Require Import Reals List Bool ZArith Lia Lra Arith.
From Verif Require Import Outcome ListLemmas LaBase LinalgModel LinalgSpec LinalgProofs LinalgSubProofs
  LinalgTensorProofs LinalgGsProofs LinalgBrentProofs LinalgExamples.
Import ListNotations.
Local Open Scope R_scope.

(** C28: a block that fits is written, and nothing else changes. *)
Theorem C28_set_block_matrix : forall b is ie js je g, rm_wf b -> rm_wf g -> rm_dist b = false -> rm_dist g = false ->
  (rm_r b <= rm_r g)%nat -> (rm_c b <= rm_c g)%nat ->
  (0 <= is < Z.of_nat (rm_r g))%Z -> (0 <= js < Z.of_nat (rm_c g))%Z ->
  (is <= ie <= Z.of_nat (rm_r g))%Z -> (js <= je <= Z.of_nat (rm_c g))%Z ->
  (ie - is <= Z.of_nat (rm_r b))%Z -> (je - js <= Z.of_nat (rm_c b))%Z ->
  exists g', set_block_mat b is ie js je g = Ok g' /\ rm_wf g' /\ rm_r g' = rm_r g /\ rm_c g' = rm_c g /\
    forall i j, (i < rm_r g)%nat -> (j < rm_c g)%nat ->
      rget g' i j = if ((is <=? Z.of_nat i) && (Z.of_nat i <? ie) && (js <=? Z.of_nat j) && (Z.of_nat j <? je))%Z%bool
                    then rget b (Z.to_nat (Z.of_nat i - is)) (Z.to_nat (Z.of_nat j - js)) else rget g i j.
Proof. exact set_block_mat_ok. Qed.
Print Assumptions C28_set_block_matrix.

Theorem C28_set_block_vector : forall (b : vec) is ie (g : vec), (length b <= length g)%nat ->
  (0 <= is < Z.of_nat (length g))%Z -> (is <= ie <= Z.of_nat (length g))%Z -> (ie - is <= Z.of_nat (length b))%Z ->
  exists g', set_block_vec b is ie g = Ok g' /\ length g' = length g /\
    forall i, (i < length g)%nat ->
      vnth g' i = if ((is <=? Z.of_nat i) && (Z.of_nat i <? ie))%Z%bool then vnth b (Z.to_nat (Z.of_nat i - is)) else vnth g i.
Proof. exact set_block_vec_ok. Qed.
Print Assumptions C28_set_block_vector.

Theorem C28_copy_matrix : forall c m, rm_wf c -> dm_wf m ->
  exists m', copy_matrix c m = Ok m' /\ dm_wf m' /\ dm_h m' = rm_r c /\ dm_w m' = rm_c c /\
    forall i j, (i < rm_r c)%nat -> (j < rm_c c)%nat -> mget m' i j = rget c i j.
Proof. exact copy_matrix_ok. Qed.
Print Assumptions C28_copy_matrix.

(** C28: a block or a range outside of the target stops the program. *)
Theorem C28_outside_of_target_is_rejected : forall b is ie js je g,
  (rm_dist b = true \/ rm_dist g = true \/ (rm_r g < rm_r b)%nat \/ (rm_c g < rm_c b)%nat \/
   ~ (0 <= is < Z.of_nat (rm_r g))%Z \/ ~ (0 <= js < Z.of_nat (rm_c g))%Z \/
   ~ (0 <= ie <= Z.of_nat (rm_r g))%Z \/ ~ (0 <= je <= Z.of_nat (rm_c g))%Z) ->
  set_block_mat b is ie js je g = Abort.
Proof. exact set_block_mat_rejects. Qed.
Print Assumptions C28_outside_of_target_is_rejected.

Theorem C28_vector_outside_of_target_is_rejected : forall (b : vec) is ie (g : vec),
  ((length g < length b)%nat \/ ~ (0 <= is < Z.of_nat (length g))%Z \/ ~ (0 <= ie <= Z.of_nat (length g))%Z) ->
  set_block_vec b is ie g = Abort.
Proof. exact set_block_vec_rejects. Qed.
Print Assumptions C28_vector_outside_of_target_is_rejected.

(** C28: a range larger than the block is not rejected: entries of other rows are written, or memory
    outside of the block is read. *)
Theorem C28_range_larger_than_block_refuted :
  (exists b is ie js je g g',
    rm_wf b /\ rm_wf g /\ (Z.of_nat (rm_c b) < je - js)%Z /\ set_block_mat b is ie js je g = Ok g' /\
    rget b 1 0 <> rget g 0 2 /\ rget g' 0 2 = rget b 1 0) /\
  (exists b is ie g, (0 <= is < Z.of_nat (length g))%Z /\ (0 <= ie <= Z.of_nat (length g))%Z /\
    (length b <= length g)%nat /\ set_block_vec b is ie g = UB).
Proof. exact (conj wide_range_accepted wide_range_unsafe). Qed.
Print Assumptions C28_range_larger_than_block_refuted.

(** C29: products with selected rows are products with the extracted matrix. *)
Theorem C29_extraction : forall m rows,
  dm_wf (extract m rows) /\ dm_h (extract m rows) = length rows /\ dm_w (extract m rows) = dm_w m /\
  forall r c, (r < length rows)%nat -> (c < dm_w m)%nat ->
    mget (extract m rows) r c = mget m (Z.to_nat (nth r rows 0%Z)) c.
Proof. exact extract_ok. Qed.
Print Assumptions C29_extraction.

Theorem C29_mult_sub_matrix : forall m rows x junk,
  dm_wf m -> rows_of (dm_h m) rows -> length x = dm_w m -> (0 < dm_w m)%nat -> length junk = length rows ->
  exists y, mult_sub_matrix m rows x junk = Ok y /\ length y = length rows /\
    forall r, (r < length rows)%nat -> vnth y r = mat_vec (extract m rows) x r.
Proof.
  intros m rows x junk W V L P J. destruct (mult_sub_matrix_ok m rows x junk W V L P J) as (y & E & Ly & H).
  exists y. split; [exact E|]. split; [exact Ly|]. intros r Hr. rewrite H by exact Hr. unfold mat_vec.
  destruct (extract_ok m rows) as (_ & _ & Ew & Eg). rewrite Ew. apply rsum_ext. intros c Hc. rewrite Eg; auto.
Qed.
Print Assumptions C29_mult_sub_matrix.

Theorem C29_mult_transpose_sub_matrix : forall m rows x y,
  dm_wf m -> rows_of (dm_h m) rows -> length x = length rows -> length y = dm_w m ->
  exists z, mult_transpose_sub m rows x y = Ok z /\ length z = dm_w m /\
    forall c, (c < dm_w m)%nat -> vnth z c = mat_t_vec (extract m rows) x c.
Proof.
  intros m rows x y W V L J. destruct (mult_transpose_sub_ok m rows x y W V L J) as (z & E & Lz & H).
  exists z. split; [exact E|]. split; [exact Lz|]. intros c Hc. rewrite H by exact Hc. unfold mat_t_vec.
  destruct (extract_ok m rows) as (_ & Eh & _ & Eg). rewrite Eh. apply rsum_ext. intros r Hr. rewrite Eg; auto.
Qed.
Print Assumptions C29_mult_transpose_sub_matrix.

Theorem C29_add_mult_transpose_sub_matrix : forall m rows x y,
  dm_wf m -> rows_of (dm_h m) rows -> length x = length rows -> length y = dm_w m ->
  exists z, add_mult_transpose_sub m rows x y = Ok z /\ length z = dm_w m /\
    forall c, (c < dm_w m)%nat -> vnth z c = vnth y c + mat_t_vec (extract m rows) x c.
Proof.
  intros m rows x y W V L J. destruct (add_mult_transpose_sub_ok m rows x y W V L J) as (z & E & Lz & H).
  exists z. split; [exact E|]. split; [exact Lz|]. intros c Hc. rewrite H by exact Hc. unfold mat_t_vec.
  destruct (extract_ok m rows) as (_ & Eh & _ & Eg). rewrite Eh. f_equal. apply rsum_ext. intros r Hr. rewrite Eg; auto.
Qed.
Print Assumptions C29_add_mult_transpose_sub_matrix.

(** C29: sizes and row numbers are checked. *)
Theorem C29_misfits_are_rejected : forall m rows x y, rows <> [] ->
  ((length x <> dm_w m \/ ~ rows_of (dm_h m) rows) -> mult_sub_matrix m rows x y = Abort) /\
  ((length x <> length rows \/ length y <> dm_w m \/ ~ rows_of (dm_h m) rows) ->
     mult_transpose_sub m rows x y = Abort /\ add_mult_transpose_sub m rows x y = Abort).
Proof.
  intros m rows x y N. split; [exact (mult_sub_matrix_rejects m rows x y N)|].
  intros H. split; [exact (mult_transpose_sub_rejects m rows x y N H)|exact (add_mult_transpose_sub_rejects m rows x y N H)].
Qed.
Print Assumptions C29_misfits_are_rejected.

(** C29: an empty selection reads outside of the row array. *)
Theorem C29_empty_selection_refuted : exists m x junk,
  dm_wf m /\ (0 < dm_w m)%nat /\ length x = dm_w m /\ mult_sub_matrix m [] x junk = UB.
Proof.
  exists m32, [1; 2], []. split; [unfold dm_wf; cbn; lia|]. split; [cbn; lia|]. split; [reflexivity|].
  apply empty_rows_unsafe. reflexivity.
Qed.
Print Assumptions C29_empty_selection_refuted.

(** C30: triple products with an operator given by a matrix. *)
Theorem C30_rtap : forall L A P a M, dm_wf L -> dm_wf P -> dm_wf M -> dm_h L = op_h A -> op_w A = dm_h P -> op_matrix A a ->
  exists m, rtap L A P M = Ok m /\ dm_wf m /\ dm_h m = dm_w L /\ dm_w m = dm_w P /\
    forall i j, (i < dm_w L)%nat -> (j < dm_w P)%nat -> mget m i j = rap (op_h A) (op_w A) (mget L) a (mget P) i j.
Proof. exact rtap_matrix_ok. Qed.
Print Assumptions C30_rtap.

Theorem C30_addw_rtap : forall L A P a M w, dm_wf L -> dm_wf P -> dm_wf M -> dm_h L = op_h A -> op_w A = dm_h P ->
  op_matrix A a -> dm_h M = dm_w L -> dm_w M = dm_w P ->
  exists m, addw_rtap L A P M w = Ok m /\ dm_wf m /\ dm_h m = dm_w L /\ dm_w m = dm_w P /\
    forall i j, (i < dm_w L)%nat -> (j < dm_w P)%nat ->
      mget m i j = mget M i j + w * rap (op_h A) (op_w A) (mget L) a (mget P) i j.
Proof. exact addw_rtap_ok. Qed.
Print Assumptions C30_addw_rtap.

Theorem C30_sparse_rtap : forall L A P a, dm_wf L -> dm_wf P -> dm_h L = op_h A -> op_w A = dm_h P -> op_matrix A a ->
  exists m, sparse_rtap L A P = Ok m /\ sm_h m = dm_w L /\ sm_w m = dm_w P /\ sm_fin m = true /\
    forall i j, (i < dm_w L)%nat -> (j < dm_w P)%nat -> sm_val m i j = rap (op_h A) (op_w A) (mget L) a (mget P) i j.
Proof. exact sparse_rtap_ok. Qed.
Print Assumptions C30_sparse_rtap.

Theorem C30_addw_rtap_sparse : forall L A P a M w, dm_wf L -> dm_wf P -> dm_h L = op_h A -> op_w A = dm_h P ->
  op_matrix A a -> sm_h M = dm_w L -> sm_w M = dm_w P ->
  (sm_fin M = true -> forall i j, (i < dm_w L)%nat -> (j < dm_w P)%nat -> sm_has M i j = true) ->
  exists m, addw_rtap_sparse L A P M w = Ok m /\ sm_h m = dm_w L /\ sm_w m = dm_w P /\ sm_fin m = sm_fin M /\
    forall i j, (i < dm_w L)%nat -> (j < dm_w P)%nat ->
      sm_val m i j = sm_val M i j + w * rap (op_h A) (op_w A) (mget L) a (mget P) i j.
Proof. exact addw_rtap_sparse_ok. Qed.
Print Assumptions C30_addw_rtap_sparse.

Theorem C30_ctab : forall A B C a jb jab, rm_wf B -> rm_wf C -> rm_dist B = true -> rm_dist C = true ->
  op_matrix A a -> rm_r C = op_h A -> rm_r B = op_w A -> length jb = rm_r B -> length jab = (op_h A * rm_c B)%nat ->
  exists m, compute_ctab A B C false jb jab = Ok m /\ rm_r m = rm_c C /\ rm_c m = rm_c B /\ rm_wf m /\ rm_dist m = false /\
    forall i j, (i < rm_c C)%nat -> (j < rm_c B)%nat ->
      rget m i j = rap (op_h A) (op_w A) (rget C) a (rget B) i j.
Proof. exact compute_ctab_ok. Qed.
Print Assumptions C30_ctab.

(** C30: the block of the selected rows is added to a target of the right size. *)
Theorem C30_sub_rtap : forall L rrows A P prows M junk, dm_wf L -> dm_wf A -> dm_wf P -> dm_wf M ->
  rows_of (dm_h L) rrows -> rows_of (dm_h P) prows -> dm_h A = length rrows -> dm_w A = length prows ->
  length junk = length rrows -> dm_h M = dm_w L -> dm_w M = dm_w P ->
  exists m, add_sub_rtap L rrows A P prows M junk = Ok m /\ dm_wf m /\ dm_h m = dm_w L /\ dm_w m = dm_w P /\
    forall i j, (i < dm_w L)%nat -> (j < dm_w P)%nat ->
      mget m i j = mget M i j + rap (dm_h A) (dm_w A) (mget (extract L rrows)) (mget A) (mget (extract P prows)) i j.
Proof.
  intros L rr A P pr M junk WL WA WP WM VL VP HA HW HJ HM HN.
  destruct (add_sub_rtap_ok L rr A P pr M junk WL WA WP WM VL VP HA HW HJ) as (m & E & W & H1 & H2 & H).
  exists m. split; [exact E|]. split; [exact W|]. split; [exact H1|]. split; [exact H2|]. intros i j Hi Hj.
  rewrite H by auto. rewrite <- HM, <- HN, dm_setsize_same, HA, HW. f_equal. unfold rap. apply rsum_ext. intros k Hk.
  rewrite (proj2 (proj2 (proj2 (extract_ok L rr))) k i Hk Hi). f_equal. apply rsum_ext. intros l Hl.
  rewrite (proj2 (proj2 (proj2 (extract_ok P pr))) l j Hl Hj). reflexivity.
Qed.
Print Assumptions C30_sub_rtap.

Theorem C30_sub_rtap_sparse : forall L rrows A P prows M junk, dm_wf L -> dm_wf A -> dm_wf P ->
  rows_of (dm_h L) rrows -> rows_of (dm_h P) prows -> dm_h A = length rrows -> dm_w A = length prows ->
  length junk = length rrows -> sm_h M = dm_w L -> sm_w M = dm_w P ->
  (sm_fin M = true -> forall i j, (i < dm_w L)%nat -> (j < dm_w P)%nat -> sm_has M i j = true) ->
  exists m, add_sub_rtap_sparse L rrows A P prows M junk = Ok m /\ sm_h m = dm_w L /\ sm_w m = dm_w P /\
    forall i j, (i < dm_w L)%nat -> (j < dm_w P)%nat ->
      sm_val m i j = sm_val M i j + rap (length rrows) (length prows) (sel L rrows) (mget A) (sel P prows) i j.
Proof. exact add_sub_rtap_sparse_ok. Qed.
Print Assumptions C30_sub_rtap_sparse.

(** C30: a dense target of another size is resized but keeps old numbers, to which the block is added. *)
Theorem C30_target_of_other_size_refuted : exists L rr A P pr M junk m,
  dm_wf L /\ dm_wf A /\ dm_wf P /\ dm_wf M /\ rows_of (dm_h L) rr /\ rows_of (dm_h P) pr /\
  dm_h A = length rr /\ dm_w A = length pr /\ length junk = length rr /\
  add_sub_rtap L rr A P pr M junk = Ok m /\
  mget m 0 0 - rap (length rr) (length pr) (sel L rr) (mget A) (sel P pr) 0 0 <> 0 /\
  dm_h M <> dm_w L.
Proof. exact stale_target. Qed.
Print Assumptions C30_target_of_other_size_refuted.

(** C31: contractions. *)
Theorem C31_contraction : forall T xi xj junk, t_wf T -> length xi = t_i T -> length xj = t_j T -> length junk = t_k T ->
  exists y, tensor_contract T xi xj junk = Ok y /\ length y = t_k T /\
    forall k, (k < t_k T)%nat ->
      vnth y k = rsum (t_j T) (fun j => rsum (t_i T) (fun i => tget T i j k * vnth xi i * vnth xj j)).
Proof. exact tensor_contract_ok. Qed.
Print Assumptions C31_contraction.

Theorem C31_scaled_contraction : forall T w xi xj y junk, t_wf T -> length xi = t_i T -> length xj = t_j T -> length y = t_k T ->
  exists z, tensor_add_scaled_contract T w xi xj y junk = Ok z /\ length z = t_k T /\
    forall k, (k < t_k T)%nat -> vnth z k = vnth y k + w * contraction T (vnth xi) (vnth xj) k.
Proof. exact tensor_add_scaled_contract_ok. Qed.
Print Assumptions C31_scaled_contraction.

Theorem C31_bilinear : forall T a x1 x2 y1 y2 k,
  contraction T (fun i => a * x1 i + x2 i) y1 k = a * contraction T x1 y1 k + contraction T x2 y1 k /\
  contraction T x1 (fun j => a * y1 j + y2 j) k = a * contraction T x1 y1 k + contraction T x1 y2 k.
Proof.
  intros T a x1 x2 y1 y2 k. split.
  - rewrite (contraction_add T (fun i => a * x1 i) x2), contraction_scal. reflexivity.
  - rewrite (contraction_add_r T x1 (fun i => a * y1 i) y2), contraction_scal_r. reflexivity.
Qed.
Print Assumptions C31_bilinear.

Theorem C31_product_with_last_index : forall T x M,
  t_wf T -> dm_wf M -> length x = t_k T -> dm_h M = t_i T -> dm_w M = t_j T ->
  exists m, tensor_mult T x M = Ok m /\ dm_wf m /\ dm_h m = t_i T /\ dm_w m = t_j T /\
    forall i j, (i < t_i T)%nat -> (j < t_j T)%nat -> mget m i j = rsum (t_k T) (fun k => tget T i j k * vnth x k).
Proof. exact tensor_mult_ok. Qed.
Print Assumptions C31_product_with_last_index.

Theorem C31_transposed_products : forall T w x0 x1 M0 M1,
  t_wf T -> dm_wf M0 -> dm_wf M1 -> length x0 = t_i T -> dm_h M0 = t_k T -> dm_w M0 = t_j T ->
  length x1 = t_j T -> dm_h M1 = t_k T -> dm_w M1 = t_i T ->
  (exists m, tensor_add_mult_transpose T x0 0 M0 = Ok m /\ dm_wf m /\ dm_h m = t_k T /\ dm_w m = t_j T /\
    forall k j, (k < t_k T)%nat -> (j < t_j T)%nat ->
      mget m k j = mget M0 k j + rsum (t_i T) (fun i => tget T i j k * vnth x0 i)) /\
  (exists m, tensor_add_mult_transpose T x1 1 M1 = Ok m /\ dm_wf m /\ dm_h m = t_k T /\ dm_w m = t_i T /\
    forall k i, (k < t_k T)%nat -> (i < t_i T)%nat ->
      mget m k i = mget M1 k i + rsum (t_j T) (fun j => tget T i j k * vnth x1 j)) /\
  (exists m, tensor_add_scaled_mult_transpose T w x0 0 M0 = Ok m /\ dm_wf m /\ dm_h m = t_k T /\ dm_w m = t_j T /\
    forall k j, (k < t_k T)%nat -> (j < t_j T)%nat ->
      mget m k j = mget M0 k j + rsum (t_i T) (fun i => w * tget T i j k * vnth x0 i)) /\
  (exists m, tensor_add_scaled_mult_transpose T w x1 1 M1 = Ok m /\ dm_wf m /\ dm_h m = t_k T /\ dm_w m = t_i T /\
    forall k i, (k < t_k T)%nat -> (i < t_i T)%nat ->
      mget m k i = mget M1 k i + rsum (t_j T) (fun j => w * tget T i j k * vnth x1 j)).
Proof.
  intros T w x0 x1 M0 M1 WT W0 W1 L0 H0 H0' L1 H1 H1'.
  split; [exact (tensor_transpose_0_ok (fun t => t) T x0 M0 WT W0 L0 H0 H0')|].
  split; [exact (tensor_transpose_1_ok (fun t => t) T x1 M1 WT W1 L1 H1 H1')|].
  split; [exact (tensor_transpose_0_ok (fun t => w * t) T x0 M0 WT W0 L0 H0 H0')|].
  exact (tensor_transpose_1_ok (fun t => w * t) T x1 M1 WT W1 L1 H1 H1').
Qed.
Print Assumptions C31_transposed_products.

Theorem C31_other_axis_is_rejected : forall T w x axis M, axis <> 0%Z -> axis <> 1%Z ->
  tensor_add_mult_transpose T x axis M = Abort /\ tensor_add_scaled_mult_transpose T w x axis M = Abort.
Proof.
  intros T w x axis M N0 N1. unfold tensor_add_mult_transpose, tensor_add_scaled_mult_transpose, tensor_transpose.
  rewrite (proj2 (Z.eqb_neq _ _) N0), (proj2 (Z.eqb_neq _ _) N1). auto.
Qed.
Print Assumptions C31_other_axis_is_rejected.

(** C31: the matrix assembled from both transposed products is the exact derivative of the quadratic term. *)
Theorem C31_tangent : forall T w x, t_wf T -> t_i T = t_j T -> length x = t_i T ->
  forall M, dm_wf M -> dm_h M = t_k T -> dm_w M = t_i T ->
  exists m1 m2, tensor_add_scaled_mult_transpose T w x 0 M = Ok m1 /\ tensor_add_scaled_mult_transpose T w x 1 m1 = Ok m2 /\
    dm_h m2 = t_k T /\ dm_w m2 = t_i T /\
    forall (h : nat -> R) k, (k < t_k T)%nat ->
      w * contraction T (fun i => vnth x i + h i) (fun i => vnth x i + h i) k =
      w * contraction T (vnth x) (vnth x) k + rsum (t_i T) (fun i => (mget m2 k i - mget M k i) * h i) + w * contraction T h h k.
Proof. exact tensor_tangent. Qed.
Print Assumptions C31_tangent.

(** C32: the product along the middle index uses the first entry of the vector for every j. *)
Theorem C32_middle_index_refuted : exists T x M m,
  t_wf T /\ dm_wf M /\ length x = t_j T /\ dm_h M = t_i T /\ dm_w M = t_k T /\ tensor_add_mult_on_j T x M = Ok m /\
  mget m 0 0 <> mget M 0 0 + rsum (t_j T) (fun j => tget T 0 j 0 * vnth x j).
Proof. exact on_j_wrong. Qed.
Print Assumptions C32_middle_index_refuted.

(** C32, partial: right for vectors with equal entries. Missing: all others, for which it is false. *)
Theorem C32_middle_index_partial : forall T x M, t_wf T -> dm_wf M -> (0 < t_j T)%nat -> length x = t_j T ->
  dm_h M = t_i T -> dm_w M = t_k T -> (forall j, (j < t_j T)%nat -> vnth x j = vnth x 0) ->
  exists m, tensor_add_mult_on_j T x M = Ok m /\ dm_wf m /\ dm_h m = t_i T /\ dm_w m = t_k T /\
    forall i k, (i < t_i T)%nat -> (k < t_k T)%nat ->
      mget m i k = mget M i k + rsum (t_j T) (fun j => tget T i j k * vnth x j).
Proof.
  intros T x M WT WM P L H1 H2 C.
  destruct (tensor_add_mult_on_j_ok T x M WT WM ltac:(rewrite L; exact P) H1 H2) as (m & E & W & A & B & H).
  exists m. split; [exact E|]. split; [exact W|]. split; [exact A|]. split; [exact B|].
  intros i k Hi Hk. rewrite H by auto. f_equal. apply rsum_ext. intros j Hj. rewrite (C j Hj). reflexivity.
Qed.
Print Assumptions C32_middle_index_partial.

(** C33: Gram-Schmidt: orthonormal columns, triangular factor with positive diagonal. *)
Theorem C33_gram_schmidt : forall n cols q, cols_wf n cols -> mgs n cols = Ok q ->
  length q = length cols /\ cols_wf n q /\ orthonormal n q /\
  exists T : nat -> nat -> R, (forall i, (i < length cols)%nat -> 0 < T i i) /\ (forall k j, (j < k)%nat -> T k j = 0) /\
    forall j p, (j < length cols)%nat -> (p < n)%nat ->
      vnth (colv cols j) p = rsum (length cols) (fun k => T k j * vnth (colv q k) p).
Proof. exact mgs_qr. Qed.
Print Assumptions C33_gram_schmidt.

Theorem C33_prefix_spans : forall n cols q m, cols_wf n cols -> mgs n cols = Ok q -> (m <= length cols)%nat ->
  same_span n (firstn m q) (firstn m cols).
Proof. exact mgs_spans. Qed.
Print Assumptions C33_prefix_spans.

Theorem C33_succeeds_iff_independent : forall n cols, cols_wf n cols ->
  (exists q, mgs n cols = Ok q) <-> lin_indep n cols.
Proof.
  intros n cols W. split; [intros (q & E); exact (mgs_only_independent n cols q W E)|exact (mgs_accepts n cols W)].
Qed.
Print Assumptions C33_succeeds_iff_independent.

(** C33: against a basis of mutually orthogonal columns. *)
Theorem C33_orthonormalize : forall n mat1 mat, cols_wf n mat1 -> cols_wf n mat -> orthogonal_basis n mat1 ->
  (lin_indep n (mat1 ++ mat) -> exists q, orthonormalize n mat1 n mat = Ok q) /\
  forall q, orthonormalize n mat1 n mat = Ok q ->
  length q = length mat /\ cols_wf n q /\ orthonormal n q /\ orthogonal_to n mat1 q /\
  exists (C T : nat -> nat -> R), (forall i, (i < length mat)%nat -> 0 < T i i) /\ (forall k j, (j < k)%nat -> T k j = 0) /\
    forall j p, (j < length mat)%nat -> (p < n)%nat ->
      vnth (colv mat j) p = rsum (length mat1) (fun k => C k j * vnth (colv mat1 k) p) + rsum (length mat) (fun k => T k j * vnth (colv q k) p).
Proof.
  intros n mat1 mat W1 W2 O. split; [exact (orthonormalize_accepts n mat1 mat W1 W2 O)|].
  intros q. exact (orthonormalize_ok n mat1 mat q W1 W2 O).
Qed.
Print Assumptions C33_orthonormalize.

Theorem C33_heights_must_agree : forall n1 mat1 n mat, n <> n1 -> orthonormalize n1 mat1 n mat = Abort.
Proof. intros n1 mat1 n mat N. unfold orthonormalize. rewrite (proj2 (Nat.eqb_neq _ _) N). reflexivity. Qed.
Print Assumptions C33_heights_must_agree.

(** C78: against a basis that is not orthogonal the result is in general not orthogonal to it. *)
Theorem C78_skew_basis_refuted : exists n mat1 mat q,
  cols_wf n mat1 /\ cols_wf n mat /\ lin_indep n (mat1 ++ mat) /\ orthonormalize n mat1 n mat = Ok q /\
  ~ orthogonal_to n mat1 q.
Proof. exact skew_not_orthogonal. Qed.
Print Assumptions C78_skew_basis_refuted.

(** C79: a step length returned by the line search does not increase the objective, whatever the trial
    points of the refinement. *)
Theorem C79_line_search_descends : forall fuel nb np g phi stop propose b0 b, (1 <= nb)%nat ->
  brent fuel nb np g phi stop propose b0 = Some (Ok b) -> phi b <= phi 0.
Proof. exact brent_descends. Qed.
Print Assumptions C79_line_search_descends.

(** C79, partial: it stays within its record of trial values exactly if the objective increases between two
    successive trial points among the first nb. Missing: objectives that do not, see below. *)
Theorem C79_line_search_stays_in_record_partial : forall fuel nb np g phi stop propose b0 s,
  (1 <= nb)%nat -> brent_shrink fuel g phi b0 = Some s ->
  brent fuel nb np g phi stop propose b0 <> Some UB <->
  exists j, (2 <= j < nb)%nat /\ phi (trial g s (j - 1)) < phi (trial g s j).
Proof. exact brent_safe_iff. Qed.
Print Assumptions C79_line_search_stays_in_record_partial.

(** C79: along a direction in which the objective never increases the record is overrun. *)
Theorem C79_overrun_refuted : exists g phi b0, 1 < g /\ 0 < b0 /\ forall nb np stop propose,
  (1 <= nb)%nat -> brent 0 nb np g phi stop propose b0 = Some UB.
Proof.
  exists 2, (fun x => - x), 1. split; [lra|]. split; [lra|]. intros nb np stop propose N.
  apply brent_overrun; [exact N|lra|lra|intros; lra].
Qed.
Print Assumptions C79_overrun_refuted.
