(** Property theorems: files. *)
From Coq Require Import ZArith List Bool String.
From Verif Require Import Outcome HdfModel HdfSpec HdfProofs HdfExamples.
Import ListNotations.
Open Scope list_scope.

(** C16: dense matrices.  The file holds the transpose; the matrix read back has the same sizes and entries. *)
Theorem C16_dense_round_trip : forall (D : Type) (g : hgroup D) name (m : dense D),
  fresh g name -> dense_ok m -> 0 < dm_h m -> 0 < dm_w m ->
  exists l g', write_dense g name m = Ok g' /\ adds g name (Dset [dm_w m; dm_h m] (HDbl l)) g' /\
    (forall i j, i < dm_h m -> j < dm_w m -> stored l [dm_w m; dm_h m] [j; i] = dense_at m i j) /\
    exists m', read_dense g' name = Ok m' /\ dm_h m' = dm_h m /\ dm_w m' = dm_w m /\
      forall i j, i < dm_h m -> j < dm_w m -> dense_at m' i j = dense_at m i j.
Proof. exact @dense_rt. Qed.
Print Assumptions C16_dense_round_trip.

(** C16: third-order tensors. *)
Theorem C16_tensor_round_trip : forall (D : Type) (g : hgroup D) name (t : tensor D),
  fresh g name -> tensor_ok t -> 0 < dt_i t -> 0 < dt_j t -> 0 < dt_k t ->
  exists l g', write_tensor g name t = Ok g' /\ adds g name (Dset [dt_k t; dt_j t; dt_i t] (HDbl l)) g' /\
    (forall i j k, i < dt_i t -> j < dt_j t -> k < dt_k t ->
       stored l [dt_k t; dt_j t; dt_i t] [k; j; i] = tensor_at t i j k) /\
    exists t', read_tensor g' name = Ok t' /\ dt_i t' = dt_i t /\ dt_j t' = dt_j t /\ dt_k t' = dt_k t /\
      forall i j k, i < dt_i t -> j < dt_j t -> k < dt_k t -> tensor_at t' i j k = tensor_at t i j k.
Proof. exact @tensor_rt. Qed.
Print Assumptions C16_tensor_round_trip.

(** C16: vectors. *)
Theorem C16_vector_round_trip : forall (D : Type) (g : hgroup D) name (v : list D),
  fresh g name -> v <> [] ->
  exists g', write_vector g name v = Ok g' /\ adds g name (Dset [List.length v] (HDbl v)) g' /\
             read_vector g' name = Ok v.
Proof. exact @vector_rt. Qed.
Print Assumptions C16_vector_round_trip.

(** C16: arrays of integers and of reals, of every length including zero. *)
Theorem C16_int_array_round_trip : forall (D : Type) (g : hgroup D) name (v : list Z),
  fresh g name ->
  exists g', write_array e_int g name v = Ok g' /\ adds g name (Dset [List.length v] (HInt v)) g' /\
             read_array e_int g' name = Ok v.
Proof. exact (fun D g name v => array_rt (e_int (D := D)) g name v e_int_lawful). Qed.
Print Assumptions C16_int_array_round_trip.

Theorem C16_real_array_round_trip : forall (D : Type) (g : hgroup D) name (v : list D),
  fresh g name ->
  exists g', write_array e_dbl g name v = Ok g' /\ adds g name (Dset [List.length v] (HDbl v)) g' /\
             read_array e_dbl g' name = Ok v.
Proof. exact (fun D g name v => array_rt (e_dbl (D := D)) g name v e_dbl_lawful). Qed.
Print Assumptions C16_real_array_round_trip.

(** C16: two-dimensional integer arrays. *)
Theorem C16_array2d_round_trip : forall (D : Type) (g : hgroup D) name (v : array2d Z),
  fresh g name -> array2d_ok v -> 0 < a2_nr v -> 0 < a2_nc v ->
  exists l g', write_array2d e_int g name v = Ok g' /\ adds g name (Dset [a2_nr v; a2_nc v] (HInt l)) g' /\
    (forall i j, i < a2_nr v -> j < a2_nc v -> stored l [a2_nr v; a2_nc v] [i; j] = array2d_at v i j) /\
    exists v', read_array2d e_int g' name = Ok v' /\ a2_nr v' = a2_nr v /\ a2_nc v' = a2_nc v /\
      forall i j, i < a2_nr v -> j < a2_nc v -> array2d_at v' i j = array2d_at v i j.
Proof. exact (fun D g name v => array2d_rt (e_int (D := D)) g name v e_int_lawful). Qed.
Print Assumptions C16_array2d_round_trip.

(** C16 is false for empty objects: the element type is taken by reading entry (0,0), which does not exist. *)
Theorem C16_empty_refuted : exists (m : dense Z) (t : tensor Z) (a : array2d Z),
  dense_ok m /\ tensor_ok t /\ array2d_ok a /\
  write_dense ex_file "m" m = UB /\ write_tensor ex_file "m" t = UB /\ write_array2d e_int ex_file "m" a = UB.
Proof.
  exact (ex_intro _ {| dm_h := 0; dm_w := 3; dm_data := [] |}
        (ex_intro _ {| dt_i := 2; dt_j := 0; dt_k := 1; dt_data := [] |}
        (ex_intro _ {| a2_nr := 0; a2_nc := 2; a2_data := [] |}
        (conj (le_n 0) (conj (le_n 0) (conj (le_n 0) (conj eq_refl (conj eq_refl eq_refl)))))))).
Qed.
Print Assumptions C16_empty_refuted.

(** C17: one sparse matrix.  It can be used as a finalized matrix exactly when it has an entry. *)
Theorem C17_sparse_round_trip : forall (D : Type) (g : hgroup D) name (s : sparse D),
  fresh g name -> csr_ok s -> sp_fin s = true -> 0 < sp_h s -> 0 < sp_w s ->
  exists o g', write_sparse g name s = Ok g' /\ adds g name o g' /\
    exists s', read_sparse g' name = Ok s' /\ same_matrix s s' /\ csr_ok s' /\
               (sp_fin s' = true <-> (0 < entries s)%Z).
Proof. exact @sparse_rt. Qed.
Print Assumptions C17_sparse_round_trip.

(** C17: a table of matrix blocks. *)
Theorem C17_matrix_blocks_round_trip : forall (D : Type) (g : hgroup D) name (v : mblocks D),
  fresh g name -> List.length (mb_blocks v) = mb_nr v * mb_nc v -> 0 < mb_nr v -> 0 < mb_nc v ->
  Forall block_ok (mb_blocks v) ->
  exists o g', write_mblocks g name v = Ok g' /\ adds g name o g' /\
    exists v', read_mblocks g' name = Ok v' /\ mb_nr v' = mb_nr v /\ mb_nc v' = mb_nc v /\
      forall i j, i < mb_nr v -> j < mb_nc v ->
        exists b b', block_at (mb_nc v) (mb_blocks v) i j = Some b /\
                     block_at (mb_nc v) (mb_blocks v') i j = Some b' /\ same_block b b'.
Proof. exact @mblocks_rt. Qed.
Print Assumptions C17_matrix_blocks_round_trip.

(** C17: a block matrix, read with the offsets it was written with. *)
Theorem C17_block_matrix_round_trip : forall (D : Type) (g : hgroup D) name (v : bmatrix D) offs,
  fresh g name -> bm_roff v = offs -> bm_coff v = offs ->
  List.length (bm_blocks v) = bm_nr v * bm_nc v -> 0 < bm_nr v -> Forall block_ok (bm_blocks v) ->
  exists o g', write_bmatrix g name v = Ok g' /\ adds g name o g' /\
    exists v', read_bmatrix g' name offs = Ok v' /\ bm_roff v' = offs /\ bm_coff v' = offs /\
      forall i j, i < bm_nr v -> j < bm_nc v ->
        exists b b', block_at (bm_nc v) (bm_blocks v) i j = Some b /\
                     block_at (bm_nc v) (bm_blocks v') i j = Some b' /\ same_block b b'.
Proof. exact @bmatrix_rt. Qed.
Print Assumptions C17_block_matrix_round_trip.

(** C17: with any other offsets, in particular when rows and columns differ, the reader stops the program. *)
Theorem C17_block_matrix_other_offsets : forall (D : Type) (g : hgroup D) name (v : bmatrix D) offs,
  fresh g name -> bm_roff v <> offs \/ bm_coff v <> offs ->
  List.length (bm_blocks v) = bm_nr v * bm_nc v -> 0 < bm_nr v -> 0 < bm_nc v -> Forall block_ok (bm_blocks v) ->
  exists g', write_bmatrix g name v = Ok g' /\ read_bmatrix g' name offs = Abort.
Proof. exact @bmatrix_mismatch. Qed.
Print Assumptions C17_block_matrix_other_offsets.

(** C18 holds when there are at least rows + 1 entries. *)
Theorem C18_csr_round_trip_partial : forall (D : Type) (s : sparse D),
  csr_ok s -> sp_fin s = true -> (Z.of_nat (sp_h s) + 1 <= entries s)%Z ->
  exists f s', write_csr s = Ok f /\ read_csr f = Ok s' /\ same_matrix s s' /\ csr_ok s' /\ sp_fin s' = true.
Proof. exact @csr_rt. Qed.
Print Assumptions C18_csr_round_trip_partial.

(** C18 fails for every other matrix with an entry: the row pointers overflow their buffer. *)
Theorem C18_csr_overflow : forall (D : Type) (s : sparse D),
  csr_ok s -> sp_fin s = true -> (0 < entries s)%Z -> (entries s < Z.of_nat (sp_h s) + 1)%Z ->
  exists f, write_csr s = Ok f /\ read_csr f = UB.
Proof. exact @csr_overflow. Qed.
Print Assumptions C18_csr_overflow.

Theorem C18_csr_round_trip_refuted : exists (s : sparse Z) f,
  csr_ok s /\ sp_fin s = true /\ write_csr s = Ok f /\ read_csr f = UB.
Proof. exact (ex_intro _ ex_sparse (ex_intro _ _ (conj ex_sparse_ok (conj eq_refl (conj eq_refl eq_refl))))). Qed.
Print Assumptions C18_csr_round_trip_refuted.

(** C19: sample points. *)
Theorem C19_sample_points_round_trip : forall (D : Type) (g : hgroup D) name t (l : list (sinfo D)),
  fresh g name ->
  exists o g', write_samples g name t l = Ok g' /\ adds g name o g' /\ read_samples g' name t = Ok l /\
               forall t', t' <> t -> read_samples g' name t' = Abort.
Proof. exact @samples_rt. Qed.
Print Assumptions C19_sample_points_round_trip.

(** C71: a sample file with too few quadrature points or weights is not rejected: the reader runs off the array. *)
Theorem C71_short_arrays_refuted : exists (g : hgroup Z) name t el qp qw,
  find_name (links g) name = Some (Grp []
    [(eldset t, Dset [List.length el] (HInt el)); ("quad-pt"%string, Dset [List.length qp] (HInt qp));
     ("quad-wt"%string, Dset [List.length qw] (HDbl qw))]) /\
  List.length qp < List.length el /\ read_samples g name t = UB.
Proof.
  exact (ex_intro _ {| attrs := []; links := [("d"%string, Grp [] [("elem"%string, Dset [2] (HInt [1; 2]%Z));
           ("quad-pt"%string, Dset [1] (HInt [0]%Z)); ("quad-wt"%string, Dset [2] (HDbl [1; 1]%Z))])] |}
        (ex_intro _ "d"%string (ex_intro _ Domain (ex_intro _ [1; 2]%Z (ex_intro _ [0%Z] (ex_intro _ [1; 1]%Z
        (conj eq_refl (conj (le_n 2) eq_refl)))))))).
Qed.
Print Assumptions C71_short_arrays_refuted.

(** C71: that happens for every such file. *)
Theorem C71_short_arrays_out_of_bounds : forall (D : Type) (g : hgroup D) name t el qp qw o,
  find_name (links g) name = Some (Grp o
    [(eldset t, Dset [List.length el] (HInt el)); ("quad-pt"%string, Dset [List.length qp] (HInt qp));
     ("quad-wt"%string, Dset [List.length qw] (HDbl qw))]) ->
  List.length qp < List.length el \/ List.length qw < List.length el -> read_samples g name t = UB.
Proof. exact @samples_short_ub. Qed.
Print Assumptions C71_short_arrays_out_of_bounds.
