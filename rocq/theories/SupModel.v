(** Model of the supremizer enrichment of the velocity basis: src/rom_handler.cpp:169-196,
    src/stokes_solver.cpp:942-1008 and 1290-1363.

    Simplifications: as in RomModel (exact reals, [nat] sizes); one process; the supremizer file of a component is
    the matrix last written into it ([None]: no such file); the divergence form of a component enters as its
    matrix; a value in the configuration that is not an integer is not modelled. *)
From Coq Require Import Reals List Bool Lia Arith ZArith String.
From Verif Require Import Outcome LaBase LinalgModel TagsModel RomModel.
Import ListNotations.
Local Open Scope nat_scope.

(** The component names, the variable names, basis/number_of_supremizer (-1: absent) and the entries of the list
    basis/tags with their name and number_of_supremizer. *)
Record sup_cfg := SupCfg { sc_comps : list string; sc_vars : list string; sc_default : Z; sc_dict : list tag_entry }.

(** src/rom_handler.cpp:169-196 [ParseSupremizerInput]: number of supremizers of every component and of every
    subdomain *)
Definition parse_supremizer (cf : sup_cfg) (h : rom) : outcome (list Z * list Z) :=
  oassert (rh_sep h) (
  oassert (rh_nvar h =? 2) (
  let* ref := omap (fun b =>
    let* cn := oread (sc_comps cf) b in
    let* vn := oread (sc_vars cf) 1 in
    let* np := oread (rh_nb h) (b * rh_nvar h + 1) in
    let nsup0 := if (0 <? sc_default cf)%Z then sc_default cf else Z.of_nat np in
    Ok (look_up (print_tag (tag_for_component cn vn)) nsup0 (sc_dict cf))) (seq 0 (rh_ncomp h)) in
  let* per := omap (fun m => let* c := oread (rh_types h) m in oread ref c) (seq 0 (rh_nsub h)) in
  Ok (ref, per))).

(** [DenseMatrix::GetColumnReference(k)] does not check [k]; reading it leaves the buffer if the matrix is too
    narrow. *)
Definition read_column (m : dmat) (k : nat) : outcome vec := omap (fun i => dm_get m i k) (seq 0 (dm_h m)).

Definition dm_cols (m : dmat) : list vec := map (dm_col m) (seq 0 (dm_w m)).

(** src/stokes_solver.cpp:1325-1337: the supremizers of one component. [B] is the matrix of the divergence form
    (pressure rows, velocity columns); [MultTranspose] does not check sizes in the default build. A negative
    number makes a matrix of negative width. *)
Definition enrich_component (B u p : dmat) (num_basis : nat) (nsup : Z) : outcome dmat :=
  oassert (num_basis =? dm_w u) (
  oguard (0 <=? nsup)%Z (
  let* sup := omap (fun k =>
    let* pv := read_column p k in
    oguard ((dm_h B =? dm_h p) && (dm_w B =? dm_h u)) (Ok (dm_multt B pv))) (seq 0 (Z.to_nat nsup)) in
  let* q := orthonormalize (dm_h u) (dm_cols u) (dm_h u) sup in
  Ok (DMat (dm_h u) (Z.to_nat nsup) (List.concat q)))).

(** src/stokes_solver.cpp:1290-1363 [EnrichSupremizer]: the files written, one for every component *)
Definition enrich_supremizer (cf : sup_cfg) (Bs : list dmat) (s : romst) : outcome (list dmat) :=
  let h := rs_h s in
  oassert (rh_sep h) (
  oassert (rs_loaded s) (
  let* (ref, _) := parse_supremizer cf h in
  omap (fun m =>
    let* u := get_ref s (m * rh_nvar h) in
    let* p := get_ref s (m * rh_nvar h + 1) in
    let* B := oread Bs m in
    let* nb := oread (rh_nb h) (m * rh_nvar h) in
    let* ns := oread ref m in
    enrich_component B u p nb ns) (seq 0 (rh_ncomp h)))).

(** src/stokes_solver.cpp:951-1008 [LoadSupremizer] *)
Definition load_supremizer (cf : sup_cfg) (files : list (option dmat)) (s : romst) : outcome romst :=
  oassert (rh_sep (rs_h s)) (
  oassert (rs_loaded s) (
  let* (ref, _) := parse_supremizer cf (rs_h s) in
  ofor (rh_ncomp (rs_h s)) (fun s m =>
    match nth m files None with
    | None => Abort
    | Some f =>
        let* ns := oread ref m in
        if (Z.of_nat (dm_w f) <? ns)%Z then Abort
        else oguard (0 <=? ns)%Z (append_reference_basis s (m * rh_nvar (rs_h s)) (DMat (dm_h f) (Z.to_nat ns) (dm_buf f)))
    end) s)).

(** src/stokes_solver.cpp:942-949 [StokesSolver::LoadReducedBasis] *)
Definition stokes_load_reduced_basis (cf : sup_cfg) (bases : list rmat) (files : list (option dmat)) (s : romst) : outcome romst :=
  let* s := load_reduced_basis bases s in
  if rh_sep (rs_h s) then load_supremizer cf files s else Ok s.
