(** Concrete cases meeting the hypotheses of the HDF5 theorems. *)
From Coq Require Import ZArith List Bool String Lia.
From Verif Require Import Outcome HdfModel HdfSpec HdfProofs.
Import ListNotations.
Open Scope list_scope.
Open Scope string_scope.

(** Doubles are played by integers. *)
Definition ex_file : hgroup Z := {| attrs := []; links := [("other", Dset [1] (HInt [7%Z]))] |}.

Definition ex_dense : dense Z := {| dm_h := 2; dm_w := 3; dm_data := [1; 2; 3; 4; 5; 6]%Z |}.
Example ex_dense_ok : fresh ex_file "m" /\ dense_ok ex_dense /\ 0 < dm_h ex_dense /\ 0 < dm_w ex_dense.
Proof. unfold fresh, dense_ok; simpl; intuition (discriminate || lia). Qed.
Example ex_dense_rt : (let* g := write_dense ex_file "m" ex_dense in read_dense g "m") = Ok ex_dense.
Proof. reflexivity. Qed.
Example ex_dense_entry : dense_at ex_dense 1 2 = Some 6%Z /\ dense_at ex_dense 0 1 = Some 3%Z.
Proof. split; reflexivity. Qed.

Definition ex_tensor : tensor Z :=
  {| dt_i := 2; dt_j := 3; dt_k := 2; dt_data := [1; 2; 3; 4; 5; 6; 7; 8; 9; 10; 11; 12]%Z |}.
Example ex_tensor_rt : (let* g := write_tensor ex_file "t" ex_tensor in read_tensor g "t") = Ok ex_tensor.
Proof. reflexivity. Qed.
Example ex_tensor_ok : tensor_ok ex_tensor. Proof. unfold tensor_ok; simpl; lia. Qed.

(** A 3 x 4 matrix with an empty row; the column buffer is larger than needed. *)
Definition ex_sparse : sparse Z :=
  {| sp_h := 3; sp_w := 4; sp_I := [0; 2; 2; 3]%Z; sp_J := [1; 3; 0; 99]%Z; sp_A := [10; 11; 12]%Z; sp_fin := true |}.
Example ex_sparse_ok : csr_ok ex_sparse.
Proof.
  constructor; simpl; try lia; try reflexivity.
  - intros i Hi. destruct i as [|[|[|i]]]; simpl; lia.
  - intros k Hk. destruct k as [|[|[|k]]]; simpl; try lia.
Qed.
Example ex_sparse_rows : row ex_sparse 0 = [(1, 10); (3, 11)]%Z /\ row ex_sparse 1 = [] /\ row ex_sparse 2 = [(0, 12)]%Z.
Proof. repeat split. Qed.
Example ex_sparse_rt : exists s, (let* g := write_sparse ex_file "s" ex_sparse in read_sparse g "s") = Ok s /\
  row s 0 = [(1, 10); (3, 11)]%Z.
Proof. eexists; split; reflexivity. Qed.

(** A 2 x 2 table of blocks: one present, one absent, one present but empty. *)
Definition ex_empty : sparse Z :=
  {| sp_h := 3; sp_w := 1; sp_I := [0; 0; 0; 0]%Z; sp_J := []; sp_A := []; sp_fin := true |}.
Example ex_empty_ok : csr_ok ex_empty.
Proof.
  constructor; simpl; try lia; try reflexivity.
  intros i Hi. destruct i as [|[|[|i]]]; simpl; lia.
Qed.
Definition ex_mb : mblocks Z :=
  {| mb_nr := 2; mb_nc := 2; mb_blocks := [Some ex_sparse; None; Some ex_empty; Some ex_sparse] |}.
Example ex_mb_ok : Forall block_ok (mb_blocks ex_mb) /\ List.length (mb_blocks ex_mb) = mb_nr ex_mb * mb_nc ex_mb.
Proof.
  split; [|reflexivity].
  unfold ex_mb; simpl. repeat (apply Forall_cons; [simpl; auto using ex_sparse_ok, ex_empty_ok|]). apply Forall_nil.
Qed.
Example ex_mb_rt : exists v, (let* g := write_mblocks ex_file "b" ex_mb in read_mblocks g "b") = Ok v /\
  block_at 2 (mb_blocks v) 1 0 = Some None /\ block_at 2 (mb_blocks v) 1 1 = Some (Some (trimmed ex_sparse)).
Proof. eexists; split; [reflexivity|split; reflexivity]. Qed.

Definition ex_bm : bmatrix Z := {| bm_roff := [0; 3; 4]%Z; bm_coff := [0; 3; 4]%Z; bm_blocks := mb_blocks ex_mb |}.
Example ex_bm_ok : List.length (bm_blocks ex_bm) = bm_nr ex_bm * bm_nc ex_bm /\ 0 < bm_nr ex_bm.
Proof. split; [reflexivity|unfold bm_nr; simpl; lia]. Qed.

(** Enough entries: the CSR file is read back. *)
Definition ex_full : sparse Z :=
  {| sp_h := 1; sp_w := 2; sp_I := [0; 2]%Z; sp_J := [0; 1]%Z; sp_A := [5; 6]%Z; sp_fin := true |}.
Example ex_full_ok : csr_ok ex_full /\ (Z.of_nat (sp_h ex_full) + 1 <= entries ex_full)%Z.
Proof.
  split; [|unfold entries; simpl; lia].
  constructor; simpl; try lia; try reflexivity.
  - intros i Hi. destruct i as [|i]; simpl; lia.
  - intros k Hk. destruct k as [|[|k]]; simpl; lia.
Qed.
Example ex_full_rt : (let* f := write_csr ex_full in read_csr f) = Ok ex_full.
Proof. reflexivity. Qed.

Definition ex_samples : list (sinfo Z) :=
  [{| si_el := 4; si_qp := 0; si_qw := 100%Z |}; {| si_el := 9; si_qp := 3; si_qw := 7%Z |}]%Z.
Example ex_samples_rt :
  (let* g := write_samples ex_file "integ0" BdrFace ex_samples in read_samples g "integ0" BdrFace) = Ok ex_samples.
Proof. reflexivity. Qed.
