(** What the ROM handler is supposed to do, stated without the functions of the model. *)
From Coq Require Import Reals List Bool Lia Arith ZArith String.
From Verif Require Import Outcome LaBase LinalgModel LinalgSpec BlockVec TagsModel RomModel.
Import ListNotations.
Local Open Scope nat_scope.

(** Unknowns are (subdomain, variable) pairs; without separate bases a subdomain has a single unknown. *)
Definition unknown (h : rom) (m v : nat) : Prop := m < rh_nsub h /\ (if rh_sep h then v < rh_nvar h else v = 0).

(** Number of ROM blocks, block of an unknown in the ROM vectors and in the full-order vectors, reference block. *)
Definition blocks (h : rom) : nat := rh_nsub h * (if rh_sep h then rh_nvar h else 1).
Definition place (h : rom) (m v : nat) : nat :=
  if rh_sep h then match rh_ord h with ByDomain => m * rh_nvar h + v | ByVariable => v * rh_nsub h + m end else m.
Definition fom_place (h : rom) (m v : nat) : nat := if rh_sep h then m * rh_nvar h + v else m.
Definition ref_place (h : rom) (c v : nat) : nat := if rh_sep h then c * rh_nvar h + v else c.
Definition comp_of (h : rom) (m : nat) : nat := nth m (rh_types h) 0.

(** A sound layout: every subdomain has a component, every reference block has a basis size. *)
Definition rom_wf (h : rom) : Prop :=
  0 < rh_nsub h /\ 0 < rh_nvar h /\ List.length (rh_types h) = rh_nsub h /\
  (forall m, m < rh_nsub h -> comp_of h m < rh_ncomp h) /\
  List.length (rh_nb h) = rh_ncomp h * (if rh_sep h then rh_nvar h else 1).

(** Number of ROM unknowns of an unknown of the mesh. *)
Definition basis_size (h : rom) (m v : nat) : nat := nth (ref_place h (comp_of h m) v) (rh_nb h) 0.

(** [off] are block offsets for the sizes [size] of the unknowns placed by [pl]. *)
Definition tiles (h : rom) (pl size : nat -> nat -> nat) (off : list nat) : Prop :=
  List.length off = S (blocks h) /\ nth 0 off 0 = 0 /\
  forall m v, unknown h m v -> nth (S (pl m v)) off 0 = nth (pl m v) off 0 + size m v.

(** Reference basis of an unknown. *)
Definition basis_of (s : romst) (m v : nat) : dmat :=
  nth (ref_place (rs_h s) (comp_of (rs_h s) m) v) (rs_ref s) (DMat 0 0 []).

(** The bases are loaded: reference block [b] has a matrix of [dim b] rows and as many columns as declared. *)
Definition bases_ok (s : romst) (dim : nat -> nat) : Prop :=
  rs_loaded s = true /\ rom_wf (rs_h s) /\ List.length (rs_ref s) = List.length (rh_nb (rs_h s)) /\
  (forall b, b < List.length (rh_nb (rs_h s)) ->
     let B := nth b (rs_ref s) (DMat 0 0 []) in dm_wf B /\ dm_h B = dim b /\ dm_w B = nth b (rh_nb (rs_h s)) 0) /\
  tiles (rs_h s) (place (rs_h s)) (basis_size (rs_h s)) (rs_off s) /\
  List.length (rs_dom s) = blocks (rs_h s) /\
  (forall m v, unknown (rs_h s) m v -> nth (place (rs_h s) m v) (rs_dom s) 0 = ref_place (rs_h s) (comp_of (rs_h s) m) v).

(** Size of an unknown in the full-order vectors. *)
Definition full_size (h : rom) (dim : nat -> nat) (m v : nat) : nat := dim (ref_place h (comp_of h m) v).

(** A full-order block vector that fits. *)
Definition fits (h : rom) (pl size : nat -> nat -> nat) (b : bvec) : Prop :=
  tiles h pl size (bv_off b) /\ List.length (bv_dat b) = nth (blocks h) (bv_off b) 0.

(** Entry [k] of the slice of unknown (m, v). *)
Definition entry (pl : nat -> nat -> nat) (b : bvec) (m v k : nat) : R := vnth (bv_dat b) (nth (pl m v) (bv_off b) 0 + k).

(** Orthonormal columns. *)
Definition ortho_cols (B : dmat) : Prop :=
  forall i j, i < dm_w B -> j < dm_w B ->
    rsum (dm_h B) (fun k => (mget B k i * mget B k j)%R) = if i =? j then 1%R else 0%R.

(** [M] is the Galerkin projection L^T A P of an operator (zero for a missing one). *)
Definition galerkin (L : dmat) (A : option operator) (P : dmat) (M : smat) : Prop :=
  sm_h M = dm_w L /\ sm_w M = dm_w P /\
  forall a, match A with Some A => op_matrix A a | None => True end ->
  forall i j, i < dm_w L -> j < dm_w P ->
    sm_val M i j = match A with Some A => rap (op_h A) (op_w A) (mget L) a (mget P) i j | None => 0%R end.

(** An operator between the full spaces of given sizes, if any. *)
Definition op_fits (A : option operator) (p q : nat) : Prop :=
  match A with Some A => op_h A = p /\ op_w A = q /\ exists a, op_matrix A a | None => True end.

Definition smat_at (l : list (list smat)) (i j : nat) : smat := nth j (nth i l []) (sm_new 0 0).
