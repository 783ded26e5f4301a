(** Model of the HDF5 readers and writers (src/hdf5_utils.cpp, include/hdf5_utils.hpp,
    src/linalg_utils.cpp:365-423, src/hyperreduction_integ.cpp:13-88).  Definitions only.

    The HDF5 library is not in /repo.  A group is a list of named attributes and a list of named links; creating a
    link or an attribute under an existing name fails, opening a missing one fails.  A dataset is its extents and its
    elements in row-major order.  [H5Dread]/[H5Dwrite] with [H5S_ALL] move all elements.
    Simplified: a link name is one path segment; a read with an element class other than the stored one (which HDF5
    converts) is outside the model and marked [UB]; open handles and file modes are not modelled. *)
From Coq Require Import ZArith List Bool String Ascii.
From Verif Require Import Outcome ConfigModel.
Import ListNotations.
Open Scope list_scope.

(** [for (i < nr) for (j < nc)] *)
Definition pairs (nr nc : nat) : list (nat * nat) := list_prod (seq 0 nr) (seq 0 nc).

Section Hdf.
  (** [double] *)
  Context {D : Type}.

  Inductive hdata :=
  | HInt (l : list Z)
  | HDbl (l : list D)
  | HBool (l : list bool).

  Inductive hobj :=
  | Dset (dims : list nat) (d : hdata)
  | Grp (attrs : list (string * Z)) (links : list (string * hobj)).

  Record hgroup := { attrs : list (string * Z); links : list (string * hobj) }.
  Definition empty_group : hgroup := {| attrs := []; links := [] |}.

  Fixpoint find_name {X : Type} (l : list (string * X)) (k : string) : option X :=
    match l with
    | [] => None
    | (k', x) :: t => if String.eqb k' k then Some x else find_name t k
    end.

  (** [H5Dcreate2] / [H5Gcreate] followed by filling the new object. *)
  Definition h5_create (g : hgroup) (name : string) (o : hobj) : outcome hgroup :=
    match find_name (links g) name with
    | Some _ => Abort
    | None => Ok {| attrs := attrs g; links := (name, o) :: links g |}
    end.
  (** [H5Acreate] and [H5Awrite] (include/hdf5_utils.hpp:111-124 WriteAttribute) *)
  Definition h5_create_attr (g : hgroup) (name : string) (z : Z) : outcome hgroup :=
    match find_name (attrs g) name with
    | Some _ => Abort
    | None => Ok {| attrs := (name, z) :: attrs g; links := links g |}
    end.
  (** [H5Dopen], [H5Dget_space], [H5Sget_simple_extent_dims] *)
  Definition h5_open_dset (g : hgroup) (name : string) : outcome (list nat * hdata) :=
    match find_name (links g) name with
    | Some (Dset dims d) => Ok (dims, d)
    | _ => Abort
    end.
  (** [H5Gopen2] *)
  Definition h5_open_group (g : hgroup) (name : string) : outcome hgroup :=
    match find_name (links g) name with
    | Some (Grp a l) => Ok {| attrs := a; links := l |}
    | _ => Abort
    end.
  (** include/hdf5_utils.hpp:99-109 ReadAttribute: [H5Aopen_name] on a missing attribute gives an invalid handle and
      [H5Aread] fails. *)
  Definition h5_read_attr (g : hgroup) (name : string) : outcome Z :=
    match find_name (attrs g) name with Some z => Ok z | None => Abort end.

  (** Element classes: [GetType(int)], [GetType(double)], [GetType(bool)] (include/hdf5_utils.hpp:86-88). *)
  Record elem (T : Type) := { pack : list T -> hdata; unpack : hdata -> outcome (list T) }.
  Definition e_int : elem Z := {| pack := HInt; unpack := fun d => match d with HInt l => Ok l | _ => UB end |}.
  Definition e_dbl : elem D := {| pack := HDbl; unpack := fun d => match d with HDbl l => Ok l | _ => UB end |}.
  Definition e_bool : elem bool := {| pack := HBool; unpack := fun d => match d with HBool l => Ok l | _ => UB end |}.

  (** include/hdf5_utils.hpp:187-212 WriteDataset Array<T> *)
  Definition write_array {T} (e : elem T) (g : hgroup) (name : string) (v : list T) : outcome hgroup :=
    h5_create g name (Dset [List.length v] (pack _ e v)).

  (** include/hdf5_utils.hpp:126-151 ReadDataset Array<T> *)
  Definition read_array {T} (e : elem T) (g : hgroup) (name : string) : outcome (list T) :=
    let* (dims, d) := h5_open_dset g name in
    match dims with
    | [n] => if Nat.ltb 0 n then unpack _ e d else Ok []
    | _ => Abort
    end.

  (** mfem::Array2D: row-major, entry (i, j) at i * ncols + j. *)
  Record array2d (T : Type) := { a2_nr : nat; a2_nc : nat; a2_data : list T }.
  Arguments a2_nr {T}. Arguments a2_nc {T}. Arguments a2_data {T}.

  (** include/hdf5_utils.hpp:214-235 WriteDataset Array2D<T>: the call GetType(value(0,0)) reads entry (0,0). *)
  Definition write_array2d {T} (e : elem T) (g : hgroup) (name : string) (v : array2d T) : outcome hgroup :=
    let* _ := oread (a2_data v) 0 in
    oguard (Nat.leb (a2_nr v * a2_nc v) (List.length (a2_data v)))
      (h5_create g name (Dset [a2_nr v; a2_nc v] (pack _ e (firstn (a2_nr v * a2_nc v) (a2_data v))))).

  (** include/hdf5_utils.hpp:153-183 ReadDataset Array2D<T> *)
  Definition read_array2d {T} (e : elem T) (g : hgroup) (name : string) : outcome (array2d T) :=
    let* (dims, d) := h5_open_dset g name in
    match dims with
    | [n; m] => if Nat.eqb n 0 || Nat.eqb m 0 then Ok {| a2_nr := n; a2_nc := m; a2_data := [] |}
                else let* l := unpack _ e d in Ok {| a2_nr := n; a2_nc := m; a2_data := l |}
    | _ => Abort
    end.

  (** src/hdf5_utils.cpp:362-383 WriteDataset Vector *)
  Definition write_vector (g : hgroup) (name : string) (v : list D) : outcome hgroup :=
    oassert (Nat.ltb 0 (List.length v)) (h5_create g name (Dset [List.length v] (HDbl v))).

  (** src/hdf5_utils.cpp:340-360 ReadDataset Vector: value[0] is read before the data. *)
  Definition read_vector (g : hgroup) (name : string) : outcome (list D) :=
    let* (dims, d) := h5_open_dset g name in
    match dims with
    | [n] => oguard (Nat.ltb 0 n) (unpack _ e_dbl d)
    | _ => Abort
    end.

  (** mfem::DenseMatrix: column-major, entry (i, j) at i + j * height. *)
  Record dense := { dm_h : nat; dm_w : nat; dm_data : list D }.

  (** src/hdf5_utils.cpp:121-143 WriteDataset DenseMatrix *)
  Definition write_dense (g : hgroup) (name : string) (m : dense) : outcome hgroup :=
    let* _ := oread (dm_data m) 0 in
    oguard (Nat.leb (dm_w m * dm_h m) (List.length (dm_data m)))
      (h5_create g name (Dset [dm_w m; dm_h m] (HDbl (firstn (dm_w m * dm_h m) (dm_data m))))).

  (** src/hdf5_utils.cpp:98-119 ReadDataset DenseMatrix: SetSize(dims[1], dims[0]), then value(0,0) is read. *)
  Definition read_dense (g : hgroup) (name : string) : outcome dense :=
    let* (dims, d) := h5_open_dset g name in
    match dims with
    | [n; m] => oguard (Nat.ltb 0 (n * m))
                  (let* l := unpack _ e_dbl d in Ok {| dm_h := m; dm_w := n; dm_data := l |})
    | _ => Abort
    end.

  (** mfem::DenseTensor: entry (i, j, k) at i + SizeI * (j + SizeJ * k). *)
  Record tensor := { dt_i : nat; dt_j : nat; dt_k : nat; dt_data : list D }.

  (** src/hdf5_utils.cpp:408-431 WriteDataset DenseTensor *)
  Definition write_tensor (g : hgroup) (name : string) (t : tensor) : outcome hgroup :=
    let* _ := oread (dt_data t) 0 in
    let n := dt_k t * dt_j t * dt_i t in
    oguard (Nat.leb n (List.length (dt_data t)))
      (h5_create g name (Dset [dt_k t; dt_j t; dt_i t] (HDbl (firstn n (dt_data t))))).

  (** src/hdf5_utils.cpp:385-406 ReadDataset DenseTensor: SetSize(dims[2], dims[1], dims[0]) *)
  Definition read_tensor (g : hgroup) (name : string) : outcome tensor :=
    let* (dims, d) := h5_open_dset g name in
    match dims with
    | [n0; n1; n2] => oguard (Nat.ltb 0 (n0 * n1 * n2))
                  (let* l := unpack _ e_dbl d in Ok {| dt_i := n2; dt_j := n1; dt_k := n0; dt_data := l |})
    | _ => Abort
    end.

  (** mfem::SparseMatrix in CSR form.  [sp_fin] is [Finalized()]: the value storage is allocated.
      The column and value buffers may be larger than the number of entries I[height]. *)
  Record sparse := { sp_h : nat; sp_w : nat; sp_I : list Z; sp_J : list Z; sp_A : list D; sp_fin : bool }.

  (** [NumNonZeroElems()] of a finalized matrix: I[height] *)
  Definition sp_nnz (s : sparse) : outcome Z := oread (sp_I s) (sp_h s).

  (** [Array::MakeRef(ptr, n)] and reading its [n] elements. *)
  Definition take_ref {A} (l : list A) (z : Z) : outcome (list A) :=
    oguard (Z.leb 0 z && Nat.leb (Z.to_nat z) (List.length l)) (Ok (firstn (Z.to_nat z) l)).

  (** src/hdf5_utils.cpp:213-245 WriteSparseMatrix *)
  Definition write_sparse (g : hgroup) (name : string) (s : sparse) : outcome hgroup :=
    oassert (sp_fin s)
      (let grp := empty_group in
       let* nnz := sp_nnz s in
       let* iw := take_ref (sp_I s) (Z.of_nat (sp_h s) + 1) in
       let* jw := take_ref (sp_J s) nnz in
       let* aw := take_ref (sp_A s) nnz in
       let* grp := write_array e_int grp "I" iw in
       let* grp := write_array e_int grp "J" jw in
       let* grp := write_array e_dbl grp "data" aw in
       let* grp := write_array e_int grp "size" [Z.of_nat (sp_h s); Z.of_nat (sp_w s)] in
       h5_create g name (Grp (attrs grp) (links grp))).

  (** src/hdf5_utils.cpp:176-211 ReadSparseMatrix.  The value array of a matrix without entries is a null pointer. *)
  Definition read_sparse (g : hgroup) (name : string) : outcome sparse :=
    let* grp := h5_open_group g name in
    let* ir := read_array e_int grp "I" in
    let* jr := read_array e_int grp "J" in
    let* sz := read_array e_int grp "size" in
    let* ar := read_array e_dbl grp "data" in
    oassert (Nat.eqb (List.length sz) 2)
      (let* s0 := zread sz 0 in
       let* s1 := zread sz 1 in
       oassert (Z.ltb 0 s0 && Z.ltb 0 s1)
       (oassert (Z.eqb (Z.of_nat (List.length ir)) (s0 + 1))
       (let* n := zread ir s0 in
        oassert (Z.eqb (Z.of_nat (List.length jr)) n)
        (oassert (Z.eqb (Z.of_nat (List.length ar)) n)
        (Ok {| sp_h := Z.to_nat s0; sp_w := Z.to_nat s1; sp_I := ir; sp_J := jr; sp_A := ar;
               sp_fin := Nat.ltb 0 (List.length ar) |}))))).

  (** "block_" + std::to_string(i) + "_" + std::to_string(j) *)
  Definition block_name (i j : nat) : string :=
    String.append "block_" (String.append (index_key i) (String.append "_" (index_key j))).

  (** src/hdf5_utils.cpp:316-318, 473-475: a block is skipped when it is null or has no entry. *)
  Definition zero_block (b : option sparse) : outcome bool :=
    match b with
    | None => Ok true
    | Some s => let* n := sp_nnz s in Ok (Z.eqb n 0)
    end.

  (** src/hdf5_utils.cpp:321-329, 478-486 *)
  Definition write_blocks (nr nc : nat) (zb : list bool) (bl : list (option sparse)) (g : hgroup) : outcome hgroup :=
    ofold (fun g '(i, j) =>
             let* z := oread zb (i * nc + j) in
             if z then Ok g
             else let* b := oread bl (i * nc + j) in
                  match b with
                  | None => UB
                  | Some s => write_sparse g (block_name i j) s
                  end)
          (pairs nr nc) g.

  (** src/hdf5_utils.cpp:288-296, 450-457: the blocks are all null before the loop. *)
  Definition read_blocks (nr nc : nat) (zb : list bool) (g : hgroup) : outcome (list (option sparse)) :=
    omap (fun '(i, j) =>
            let* z := oread zb (i * nc + j) in
            if z then Ok None
            else let* s := read_sparse g (block_name i j) in Ok (Some s))
         (pairs nr nc).

  (** include/linalg_utils.hpp:49-118 MatrixBlocks: row-major array of pointers. *)
  Record mblocks := { mb_nr : nat; mb_nc : nat; mb_blocks : list (option sparse) }.

  (** src/hdf5_utils.cpp:461-492 WriteDataset MatrixBlocks *)
  Definition write_mblocks (g : hgroup) (name : string) (v : mblocks) : outcome hgroup :=
    let grp := empty_group in
    let* grp := h5_create_attr grp "nrows" (Z.of_nat (mb_nr v)) in
    let* grp := h5_create_attr grp "ncols" (Z.of_nat (mb_nc v)) in
    let* zb := omap zero_block (mb_blocks v) in
    let* grp := write_array2d e_bool grp "zero_blocks" {| a2_nr := mb_nr v; a2_nc := mb_nc v; a2_data := zb |} in
    let* grp := write_blocks (mb_nr v) (mb_nc v) zb (mb_blocks v) grp in
    h5_create g name (Grp (attrs grp) (links grp)).

  (** src/hdf5_utils.cpp:433-459 ReadDataset MatrixBlocks *)
  Definition read_mblocks (g : hgroup) (name : string) : outcome mblocks :=
    let* grp := h5_open_group g name in
    let* nr := h5_read_attr grp "nrows" in
    let* nc := h5_read_attr grp "ncols" in
    let* zb := read_array2d e_bool grp "zero_blocks" in
    oassert (Z.eqb (Z.of_nat (a2_nr zb)) nr)
    (oassert (Z.eqb (Z.of_nat (a2_nc zb)) nc)
    (let* bl := read_blocks (Z.to_nat nr) (Z.to_nat nc) (a2_data zb) grp in
     Ok {| mb_nr := Z.to_nat nr; mb_nc := Z.to_nat nc; mb_blocks := bl |})).

  (** mfem::BlockMatrix: row and column offsets, row-major array of block pointers. *)
  Record bmatrix := { bm_roff : list Z; bm_coff : list Z; bm_blocks : list (option sparse) }.
  Definition bm_nr (b : bmatrix) : nat := List.length (bm_roff b) - 1.
  Definition bm_nc (b : bmatrix) : nat := List.length (bm_coff b) - 1.

  (** src/hdf5_utils.cpp:298-338 WriteBlockMatrix *)
  Definition write_bmatrix (g : hgroup) (name : string) (v : bmatrix) : outcome hgroup :=
    let grp := empty_group in
    let* grp := write_array e_int grp "size" [Z.of_nat (bm_nr v); Z.of_nat (bm_nc v)] in
    let* grp := write_array e_int grp "row_offsets" (bm_roff v) in
    let* grp := write_array e_int grp "col_offsets" (bm_coff v) in
    let* zb := omap zero_block (bm_blocks v) in
    let* grp := write_array2d e_bool grp "zero_blocks" {| a2_nr := bm_nr v; a2_nc := bm_nc v; a2_data := zb |} in
    let* grp := write_blocks (bm_nr v) (bm_nc v) zb (bm_blocks v) grp in
    h5_create g name (Grp (attrs grp) (links grp)).

  Fixpoint zlist_eqb (a b : list Z) : bool :=
    match a, b with
    | [], [] => true
    | x :: a', y :: b' => Z.eqb x y && zlist_eqb a' b'
    | _, _ => false
    end.

  (** src/hdf5_utils.cpp:247-296 ReadBlockMatrix *)
  Definition read_bmatrix (g : hgroup) (name : string) (offsets : list Z) : outcome bmatrix :=
    let* grp := h5_open_group g name in
    let* sz := read_array e_int grp "size" in
    let* ro := read_array e_int grp "row_offsets" in
    let* co := read_array e_int grp "col_offsets" in
    let* zb := read_array2d e_bool grp "zero_blocks" in
    oassert (Nat.eqb (List.length sz) 2)
      (let* s0 := zread sz 0 in
       let* s1 := zread sz 1 in
       oassert (Z.eqb (Z.of_nat (List.length ro)) (s0 + 1))
       (oassert (Z.eqb (Z.of_nat (List.length co)) (s1 + 1))
       (oassert (Z.eqb (Z.of_nat (a2_nr zb)) s0)
       (oassert (Z.eqb (Z.of_nat (a2_nc zb)) s1)
       (oassert (zlist_eqb ro offsets && zlist_eqb co offsets)
       (let* bl := read_blocks (Z.to_nat s0) (Z.to_nat s1) (a2_data zb) grp in
        Ok {| bm_roff := offsets; bm_coff := offsets; bm_blocks := bl |})))))).

  (** ** CSR files through libROM's HDFDatabase (not in /repo).  [putXArray] requires a positive count;
      [getXArray(key, buf, n)] returns at once for [n = 0], otherwise checks that the stored array has [n] elements
      and copies them to [buf]. *)
  Definition db_put {T} (e : elem T) (g : hgroup) (key : string) (l : list T) : outcome hgroup :=
    oassert (Nat.ltb 0 (List.length l)) (write_array e g key l).
  (** [cap] is the allocated size of the destination. *)
  Definition db_get {T} (e : elem T) (g : hgroup) (key : string) (cap : nat) (n : Z) : outcome (list T) :=
    if Z.eqb n 0 then Ok []
    else let* (dims, d) := h5_open_dset g key in
         match dims with
         | [k] => oassert (Z.eqb (Z.of_nat k) n) (oguard (Nat.leb k cap) (unpack _ e d))
         | _ => Abort
         end.
  (** [getDoubleArraySize(key)] *)
  Definition db_size (g : hgroup) (key : string) : outcome nat :=
    let* (dims, _) := h5_open_dset g key in
    match dims with [k] => Ok k | _ => Abort end.

  (** src/linalg_utils.cpp:396-423 WriteSparseMatrixToHDF *)
  Definition write_csr (s : sparse) : outcome hgroup :=
    oassert (sp_fin s)
      (let f := empty_group in
       let* nnz := sp_nnz s in
       let* iw := take_ref (sp_I s) (Z.of_nat (sp_h s) + 1) in
       let* jw := take_ref (sp_J s) nnz in
       let* aw := take_ref (sp_A s) nnz in
       let* f := db_put e_int f "I" iw in
       let* f := db_put e_int f "J" jw in
       let* f := db_put e_dbl f "data" aw in
       db_put e_int f "size" [Z.of_nat (sp_h s); Z.of_nat (sp_w s)]).

  (** src/linalg_utils.cpp:365-394 ReadSparseMatrixFromHDF: the row-pointer buffer has as many elements as there
      are matrix entries (line 377). *)
  Definition read_csr (f : hgroup) : outcome sparse :=
    let* sz := db_get e_int f "size" 2 2 in
    let* n_entry := db_size f "data" in
    let* s0 := zread sz 0 in
    let* s1 := zread sz 1 in
    let* ir := db_get e_int f "I" n_entry (s0 + 1) in
    let* n := zread ir s0 in
    let* jr := db_get e_int f "J" n_entry n in
    let* ar := db_get e_dbl f "data" n_entry n in
    Ok {| sp_h := Z.to_nat s0; sp_w := Z.to_nat s1; sp_I := ir; sp_J := jr; sp_A := ar; sp_fin := Nat.ltb 0 n_entry |}.

  (** ** Sample points *)

  (** IntegratorType (include/hdf5_utils.hpp, NUM_INTEG_TYPE excluded: it reaches mfem_error). *)
  Inductive itype := Domain | InteriorFace | BdrFace | Interface.
  Record sinfo := { si_el : Z; si_qp : Z; si_qw : D }.

  (** src/hdf5_utils.cpp:496-505, src/hyperreduction_integ.cpp:15-24 *)
  Definition eldset (t : itype) : string :=
    match t with Domain => "elem" | InteriorFace => "face" | BdrFace => "be" | Interface => "itf" end.

  (** src/hdf5_utils.cpp:535-577 WriteDataset Array<SampleInfo>; src/hyperreduction_integ.cpp:13-53 EQPElement::Save *)
  Definition write_samples (g : hgroup) (name : string) (t : itype) (l : list sinfo) : outcome hgroup :=
    let grp := empty_group in
    let* grp := write_array e_int grp (eldset t) (map si_el l) in
    let* grp := write_array e_int grp "quad-pt" (map si_qp l) in
    let* grp := write_array e_dbl grp "quad-wt" (map si_qw l) in
    h5_create g name (Grp (attrs grp) (links grp)).

  (** src/hdf5_utils.cpp:494-533 ReadDataset Array<SampleInfo>; src/hyperreduction_integ.cpp:55-88 EQPElement::Load.
      qp[k] and qw[k] are not checked against the length of el. *)
  Definition read_samples (g : hgroup) (name : string) (t : itype) : outcome (list sinfo) :=
    let* grp := h5_open_group g name in
    let* el := read_array e_int grp (eldset t) in
    let* qp := read_array e_int grp "quad-pt" in
    let* qw := read_array e_dbl grp "quad-wt" in
    omap (fun k => let* p := oread qp k in let* w := oread qw k in let* e := oread el k in
                   Ok {| si_el := e; si_qp := p; si_qw := w |})
         (seq 0 (List.length el)).
End Hdf.
Arguments hdata : clear implicits.
Arguments hobj : clear implicits.
Arguments hgroup : clear implicits.
Arguments elem : clear implicits.
Arguments dense : clear implicits.
Arguments tensor : clear implicits.
Arguments sparse : clear implicits.
Arguments mblocks : clear implicits.
Arguments bmatrix : clear implicits.
Arguments sinfo : clear implicits.
Arguments array2d : clear implicits.
Arguments a2_nr {T}. Arguments a2_nc {T}. Arguments a2_data {T}.
