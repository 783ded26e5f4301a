(** Model of handing solutions over: copying, comparing, and cutting them into snapshots
    (src/multiblock_solver.cpp).  Definitions only. *)
From Coq Require Import Reals List Bool Arith ZArith String.
From Verif Require Import Outcome LaBase BlockVec TagsModel SnapshotModel RomModel MbModel.
Import ListNotations.
Local Open Scope nat_scope.

(** [BlockSize(b)] *)
Definition bv_size (b : bvec) (i : nat) : outcome nat :=
  let* a := oread (bv_off b) i in
  let* e := oread (bv_off b) (i + 1) in
  Ok (e - a).

(** src/multiblock_solver.cpp:601-604, 750-753: the layout of an input is that of the solution. *)
Definition check_layout (u t : bvec) : outcome unit :=
  oassert (bv_n t =? bv_n u)
    (ofor (bv_n u) (fun _ b => let* x := bv_size t b in let* y := bv_size u b in oassert (x =? y) (Ok tt)) tt).

(** src/multiblock_solver.cpp:599-606 [CopySolution]: the assignment copies the data; the result is [*U]. *)
Definition copy_solution (u input : bvec) : outcome bvec :=
  let* _ := check_layout u input in
  Ok (BVec (bv_off u) (bv_dat input)).

(** A finite element space of one variable on one subdomain as [GridFunction::ComputeLpError] (external) uses it:
    quadrature points with their weights (times the Jacobian), components, degrees of freedom, and the value of
    component [d] of the shape function of each degree of freedom at each point. *)
Record fspace := FSpace { fs_np : nat; fs_w : nat -> R; fs_vdim : nat; fs_nd : nat; fs_shape : nat -> nat -> nat -> R }.

Definition field_value (fs : fspace) (u : vec) (q d : nat) : R := rsum (fs_nd fs) (fun i => (fs_shape fs q d i * vnth u i)%R).

(** [ComputeLpError(2, coefficient)], scalar and vector versions (external). *)
Definition lp_error_scalar (fs : fspace) (u : vec) (exact : nat -> R) : R :=
  sqrt (rsum (fs_np fs) (fun q => fs_w fs q * ((field_value fs u q 0 - exact q) * (field_value fs u q 0 - exact q))))%R.
Definition lp_error_vector (fs : fspace) (u : vec) (exact : nat -> nat -> R) : R :=
  sqrt (rsum (fs_np fs) (fun q => fs_w fs q *
    rsum (fs_vdim fs) (fun d => (field_value fs u q d - exact q d) * (field_value fs u q d - exact q d))))%R.

(** src/multiblock_solver.cpp:694-718 [ComputeSubdomainErrorAndNorm]: error and norm. *)
Definition subdomain_error_norm (fs : fspace) (fom rom : vec) : R * R :=
  if fs_vdim fs =? 1
  then (lp_error_scalar fs fom (fun q => field_value fs rom q 0), lp_error_scalar fs fom (fun _ => 0%R))
  else (lp_error_vector fs fom (field_value fs rom), lp_error_vector fs fom (fun _ _ => 0%R)).

(** src/multiblock_solver.cpp:374-379, 422-427 (in [InitIndividualParaview] and [InitUnifiedParaview]): the error
    fields are made but not filled; [memory] is what the allocated vectors hold. *)
Definition init_error_fields (save_error : bool) (memory : list vec) : option (list vec) :=
  if save_error then Some memory else None.

(** src/multiblock_solver.cpp:749-776 [CompareSolution]: the relative errors and the error fields afterwards.  [us] are
    grid functions on the blocks of [U] (set up in [InitVariables]); [fes k] is the space of block [k];
    [save_error] is [visual.save_error] and [fields] the array [error_visual]. *)
Definition compare_solution (ns nv : nat) (fes : nat -> fspace) (save_error : bool) (fields : option (list vec)) (u t : bvec) :
    outcome (vec * option (list vec)) :=
  let* _ := check_layout u t in
  let* us := omap (bv_get u) (seq 0 (nv * ns)) in
  let* ts := omap (bv_get t) (seq 0 (nv * ns)) in
  let* err := relative_error ns nv (fun m v => subdomain_error_norm (fes (m * nv + v)) (nth (m * nv + v) us []) (nth (m * nv + v) ts [])) in
  if save_error then
    match fields with
    | None => UB
    | Some es =>
        let* es := ofor (nv * ns) (fun es k =>
          let* _ := oread es k in
          owrite es k (map (fun xy => (fst xy - snd xy)%R) (combine (nth k ts []) (nth k us [])))) es in
        Ok (err, Some es)
    end
  else Ok (err, fields).

(** src/multiblock_solver.cpp:635-650 [PrepareSnapshots]: the blocks and their tags; [sep] is [separate_variable_basis],
    [var_names] the names of the variables. *)
Definition prepare_snapshots (sep : bool) (topo : topology) (var_names : list string) (var_off dom_off : list nat) (u : bvec) :
    outcome (list vec * list basis_tag) :=
  let view := BVec (if sep then var_off else dom_off) (bv_dat u) in
  let tags := get_basis_tags topo (if sep then var_names else [EmptyString]) in
  oassert (bv_n view =? List.length tags)
    (let* blocks := omap (bv_get view) (seq 0 (bv_n view)) in Ok (blocks, tags)).
