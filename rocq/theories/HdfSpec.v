(** Specification vocabulary for the HDF5 round trips: what the objects mean, independent of how they are stored. *)
From Coq Require Import ZArith List Bool String.
From Verif Require Import Outcome HdfModel.
Import ListNotations.
Open Scope list_scope.

Section Spec.
  Context {D : Type}.

  (** Entries of the MFEM objects. *)
  Definition dense_at (m : dense D) (i j : nat) : option D := nth_error (dm_data m) (i + j * dm_h m).
  Definition tensor_at (t : tensor D) (i j k : nat) : option D :=
    nth_error (dt_data t) (i + dt_i t * (j + dt_j t * k)).
  Definition array2d_at {T} (a : array2d T) (i j : nat) : option T := nth_error (a2_data a) (i * a2_nc a + j).

  (** Elements of a row-major dataset, by multi-index. *)
  Fixpoint flat (dims idx : list nat) : nat :=
    match dims, idx with
    | _ :: dims', i :: idx' => i * fold_right Nat.mul 1 dims' + flat dims' idx'
    | _, _ => 0
    end.
  Definition stored {T} (l : list T) (dims idx : list nat) : option T := nth_error l (flat dims idx).

  (** Allocated objects. *)
  Definition dense_ok (m : dense D) : Prop := dm_h m * dm_w m <= List.length (dm_data m).
  Definition tensor_ok (t : tensor D) : Prop := dt_i t * dt_j t * dt_k t <= List.length (dt_data t).
  Definition array2d_ok {T} (a : array2d T) : Prop := a2_nr a * a2_nc a <= List.length (a2_data a).

  (** The name is not yet used in the group; all other links are as before. *)
  Definition fresh (g : hgroup D) (name : string) : Prop := ~ In name (map fst (links g)).
  Definition adds (g : hgroup D) (name : string) (o : hobj D) (g' : hgroup D) : Prop :=
    attrs g' = attrs g /\ forall n x, In (n, x) (links g') <-> (n = name /\ x = o) \/ In (n, x) (links g).

  (** CSR well-formedness: row pointers start at zero, do not decrease and address the buffers; column indices are
      within the width. *)
  Record csr_ok (s : sparse D) : Prop := {
    csr_len : List.length (sp_I s) = sp_h s + 1;
    csr_zero : nth 0 (sp_I s) 0%Z = 0%Z;
    csr_mono : forall i, i < sp_h s -> (nth i (sp_I s) 0 <= nth (i + 1) (sp_I s) 0)%Z;
    csr_J : (nth (sp_h s) (sp_I s) 0 <= Z.of_nat (List.length (sp_J s)))%Z;
    csr_A : (nth (sp_h s) (sp_I s) 0 <= Z.of_nat (List.length (sp_A s)))%Z;
    csr_col : forall k, (Z.of_nat k < nth (sp_h s) (sp_I s) 0)%Z ->
              (0 <= nth k (sp_J s) 0 < Z.of_nat (sp_w s))%Z
  }.
  (** Number of stored entries, and the (column, value) pairs stored for row [i]. *)
  Definition entries (s : sparse D) : Z := nth (sp_h s) (sp_I s) 0%Z.
  Definition row (s : sparse D) (i : nat) : list (Z * D) :=
    let a := Z.to_nat (nth i (sp_I s) 0%Z) in
    let b := Z.to_nat (nth (i + 1) (sp_I s) 0%Z) in
    firstn (b - a) (skipn a (combine (sp_J s) (sp_A s))).
  Definition same_matrix (s s' : sparse D) : Prop :=
    sp_h s' = sp_h s /\ sp_w s' = sp_w s /\ forall i, i < sp_h s -> row s' i = row s i.

  (** A block that is read back: absent when it was absent or empty, otherwise the same matrix. *)
  Definition same_block (b b' : option (sparse D)) : Prop :=
    match b with
    | None => b' = None
    | Some s => if Z.eqb (entries s) 0 then b' = None
                else exists s', b' = Some s' /\ same_matrix s s' /\ csr_ok s' /\ sp_fin s' = true
    end.
  Definition block_ok (b : option (sparse D)) : Prop :=
    match b with None => True | Some s => csr_ok s /\ sp_fin s = true end.
End Spec.

(** Block (i, j) of a row-major table with [nc] columns. *)
Definition block_at {X : Type} (nc : nat) (l : list X) (i j : nat) : option X := nth_error l (i * nc + j).
