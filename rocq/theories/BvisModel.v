(** Model of the visualization of basis vectors (src/rom_handler.cpp:958-1011) and of the check of element types of the
    Navier-Stokes solver (src/steady_ns_solver.cpp:449-454).

    Simplifications: as in RomModel; the name <prefix>_<c> of a collection is the position [c] in the result, the name
    <variable>_basis_<k> of a field is the pair (variable, k); a finite element space is its number of unknowns. *)
From Coq Require Import Reals List Bool Lia Arith ZArith String.
From Verif Require Import Outcome LaBase LinalgModel TagsModel RomModel.
Import ListNotations.
Local Open Scope nat_scope.

(** A field: its name and its values. *)
Definition bfield := ((string * nat) * vec)%type.

(** src/rom_handler.cpp:984-989: sizes of the blocks of the view *)
Definition view_sizes (vs : list nat) (midx nvar n : nat) : outcome (list nat) :=
  omap (fun i => oread vs (midx * nvar + i mod nvar)) (seq 0 (n * nvar)).

(** [BlockVector::GetBlock(idx)] of a view on [buf] *)
Definition view_block (buf : vec) (sizes : list nat) (idx : nat) : outcome vec :=
  let* sz := oread sizes idx in
  let lo := fold_left Nat.add (firstn idx sizes) 0 in
  oguard (lo + sz <=? List.length buf) (Ok (firstn sz (skipn lo buf))).

(** src/rom_handler.cpp:958-1011 [SaveBasisVisualization]; the result are the collections saved, each with the
    subdomain whose mesh it is drawn on *)
Definition save_basis_visualization (enabled : bool) (s : romst) (vs : list nat) (vars : list string) : outcome (list (nat * list bfield)) :=
  if negb enabled then Ok [] else
  let h := rs_h s in
  let nvar := List.length vars in
  oassert (rs_loaded s) (
  oassert (List.length vs =? nvar * rh_nsub h) (
  omap (fun c =>
    match first_sub (rh_types h) c 0 with
    | None => Abort
    | Some midx =>
        let* n := oread (rh_nb h) c in
        let* sizes := view_sizes vs midx nvar n in
        let* B := oread (rs_ref s) c in
        let* fields := omap (fun idx =>
          let* name := oread vars (idx mod nvar) in
          let* x := view_block (dm_buf B) sizes idx in
          Ok ((name, idx / nvar), x)) (seq 0 (n * nvar)) in
        Ok (midx, fields)
    end) (seq 0 (num_ref_blocks h)))).

(** src/steady_ns_solver.cpp:449-454; [types] are the types of the first elements of the subdomain meshes *)
Definition check_element_types (num_comp : nat) (types : list nat) : outcome unit :=
  let* type0 := oread types 0 in
  ofor num_comp (fun _ c => let* t := oread types c in if negb (type0 =? t) then Abort else Ok tt) tt.
