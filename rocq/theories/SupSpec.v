(** Vocabulary for the theorems on supremizers. *)
From Coq Require Import Reals List Bool Lia Arith ZArith String.
From Verif Require Import Outcome LaBase LinalgModel LinalgSpec TagsModel RomModel RomSpec SupModel.
Import ListNotations.
Local Open Scope nat_scope.

(** The velocity and the pressure basis of component [c] and their numbers of vectors. *)
Definition vel (s : romst) (c : nat) : dmat := nth (c * 2) (rs_ref s) (DMat 0 0 []).
Definition pres (s : romst) (c : nat) : dmat := nth (c * 2 + 1) (rs_ref s) (DMat 0 0 []).
Definition nvel (s : romst) (c : nat) : nat := nth (c * 2) (rh_nb (rs_h s)) 0.
Definition npres (s : romst) (c : nat) : nat := nth (c * 2 + 1) (rh_nb (rs_h s)) 0.

(** Number of supremizers the configuration asks for: of the first entry named after the component and its
    pressure, else the common number if that is positive, else the number of pressure vectors. *)
Definition wanted (cf : sup_cfg) (s : romst) (c : nat) : Z :=
  let common := if (0 <? sc_default cf)%Z then sc_default cf else Z.of_nat (npres s c) in
  let name := (nth c (sc_comps cf) "" ++ "_pres")%string in
  match find (fun e => match fst e with Some n => String.eqb n name | None => false end) (sc_dict cf) with
  | Some (_, Some z) => z
  | _ => common
  end.

(** A loaded basis of velocity and pressure, in the spaces of dimension [dim]. *)
Definition vp_bases (s : romst) (dim : nat -> nat) : Prop :=
  bases_ok s dim /\ rh_sep (rs_h s) = true /\ rh_nvar (rs_h s) = 2.
Definition vp_cfg (cf : sup_cfg) (s : romst) : Prop := List.length (sc_comps cf) = rh_ncomp (rs_h s) /\ sc_vars cf = ["vel"; "pres"]%string.

(** Divergence matrices of the right sizes. *)
Definition div_sizes (s : romst) (dim : nat -> nat) (Bs : list dmat) : Prop :=
  List.length Bs = rh_ncomp (rs_h s) /\
  forall c, c < rh_ncomp (rs_h s) -> let B := nth c Bs (DMat 0 0 []) in dm_h B = dim (c * 2 + 1) /\ dm_w B = dim (c * 2).

(** Entry [i] of B^T applied to the pressure with coefficients [a] in the first [n] basis vectors. *)
Definition grad_of (B p : dmat) (n : nat) (a : nat -> R) (i : nat) : R :=
  rsum (dm_h B) (fun l => (mget B l i * rsum n (fun k => a k * mget p l k))%R).

(** The supremizer of pressure vector [k] before orthonormalization. *)
Definition raw_sup (B p : dmat) (k : nat) : vec := map (fun i => rsum (dm_h B) (fun l => (mget B l i * mget p l k)%R)) (seq 0 (dm_w B)).

(** [s'] is [s] with the first [n c] columns of [f c] appended to the velocity basis of the components below [m]. *)
Definition appended (s : romst) (dim : nat -> nat) (f : nat -> dmat) (n : nat -> nat) (m : nat) (s' : romst) : Prop :=
  vp_bases s' dim /\ rh_nsub (rs_h s') = rh_nsub (rs_h s) /\ rh_types (rs_h s') = rh_types (rs_h s) /\
  rh_ncomp (rs_h s') = rh_ncomp (rs_h s) /\ rh_ord (rs_h s') = rh_ord (rs_h s) /\
  forall c, c < rh_ncomp (rs_h s) ->
    npres s' c = npres s c /\ pres s' c = pres s c /\
    nvel s' c = nvel s c + (if c <? m then n c else 0) /\
    (forall i j, i < dim (c * 2) -> j < nvel s c -> mget (vel s' c) i j = mget (vel s c) i j) /\
    (c < m -> forall i j, i < dim (c * 2) -> j < n c -> mget (vel s' c) i (nvel s c + j) = mget (f c) i j).
