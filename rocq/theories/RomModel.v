(** Model of the ROM handler (src/rom_handler.cpp): block layout, reduced bases, projection, lifting, ownership.

    Simplifications: sizes and indices are [nat] ([int] overflow is not modelled here); entries are exact
    reals; MFEM's [Mult], [MultTranspose], [SetSubMatrix] are taken as specified; the file a basis is read
    from is represented by the matrix the reader returned. *)
From Coq Require Import Reals List Bool Lia Arith ZArith String.
From Verif Require Import Outcome LaBase LinalgModel BlockVec TagsModel.
Import ListNotations.
Local Open Scope nat_scope.

(** ** Layout of the unknowns *)

Inductive rom_order := ByDomain | ByVariable.

(** include/rom_handler.hpp:46-113: [numSub], [num_var], [separate_variable], [ordering], mesh type of every
    subdomain, number of components, [num_ref_basis]. *)
Record rom := Rom { rh_nsub : nat; rh_nvar : nat; rh_sep : bool; rh_ord : rom_order;
                    rh_types : list nat; rh_ncomp : nat; rh_nb : list nat }.

(** src/rom_handler.cpp:87-96 [num_rom_blocks], [num_rom_ref_blocks] *)
Definition num_blocks (h : rom) : nat := if rh_sep h then rh_nsub h * rh_nvar h else rh_nsub h.
Definition num_ref_blocks (h : rom) : nat := if rh_sep h then rh_ncomp h * rh_nvar h else rh_ncomp h.

(** src/rom_handler.cpp:198-215 [GetBlockIndex]; the default argument is v = -1 *)
Definition block_index (h : rom) (m : nat) (v : Z) : outcome nat :=
  if (v <? 0)%Z then oassert (rh_sep h) (Ok m)
  else if negb (rh_sep h) then Ok m
  else match rh_ord h with
       | ByDomain => Ok (Z.to_nat v + m * rh_nvar h)
       | ByVariable => Ok (m + Z.to_nat v * rh_nsub h)
       end.

(** src/rom_handler.cpp:217-236 [GetDomainAndVariableIndex] *)
Definition dom_var (h : rom) (b : nat) : outcome (nat * Z) :=
  if negb (rh_sep h) then Ok (b, (-1)%Z)
  else match rh_ord h with
       | ByDomain => oguard (negb (rh_nvar h =? 0)) (Ok (b / rh_nvar h, Z.of_nat (b mod rh_nvar h)))
       | ByVariable => oguard (negb (rh_nsub h =? 0)) (Ok (b mod rh_nsub h, Z.of_nat (b / rh_nsub h)))
       end.

(** src/rom_handler.cpp:283-325 [SetBlockSizes]: offsets of the ROM blocks, offsets of the reference blocks,
    sizes of the ROM blocks *)
Definition set_block_sizes (h : rom) : outcome (list nat * list nat * list nat) :=
  let rbo := repeat 0 (num_blocks h + 1) in
  let cbo := repeat 0 (num_ref_blocks h + 1) in
  let* (rbo, cbo) :=
    (if rh_sep h then
      let* (cbo, _) := ofor (rh_ncomp h) (fun '(cbo, idx) c =>
        ofor (rh_nvar h) (fun '(cbo, idx) v =>
          let* n := oread (rh_nb h) idx in
          let* cbo := owrite cbo (idx + 1) n in Ok (cbo, idx + 1)) (cbo, idx)) (cbo, 0) in
      let* rbo := ofor (rh_nsub h) (fun rbo k =>
        let* c := oread (rh_types h) k in
        ofor (rh_nvar h) (fun rbo v =>
          let* idx := block_index h k (Z.of_nat v) in
          let* n := oread (rh_nb h) (c * rh_nvar h + v) in
          owrite rbo (idx + 1) n) rbo) rbo in
      Ok (rbo, cbo)
    else
      let* cbo := ofor (rh_ncomp h) (fun cbo c => let* n := oread (rh_nb h) c in owrite cbo (c + 1) n) cbo in
      let* rbo := ofor (rh_nsub h) (fun rbo k =>
        let* c := oread (rh_types h) k in
        let* n := oread (rh_nb h) c in owrite rbo (k + 1) n) rbo in
      Ok (rbo, cbo)) in
  Ok (psum 0 rbo, psum 0 cbo, firstn (num_blocks h) (skipn 1 rbo)).

(** ** Parsing of the basis sizes *)

(** An entry of the list basis/tags: its name and number_of_basis, where present. *)
Definition tag_entry := (option string * option Z)%type.

(** include/input_parser.hpp:166-184 [LookUpFromDict] *)
Fixpoint look_up (name : string) (default : Z) (dict : list tag_entry) : Z :=
  match dict with
  | [] => default
  | (Some n, v) :: t => if String.eqb n name then (match v with Some z => z | None => default end) else look_up name default t
  | (None, _) :: t => look_up name default t
  end.

(** src/rom_handler.cpp:132-138: first subdomain of component [c] *)
Fixpoint first_sub (types : list nat) (c m : nat) : option nat :=
  match types with [] => None | t :: r => if t =? c then Some m else first_sub r c (m + 1) end.

(** src/rom_handler.cpp:47-54 [fom_num_vdofs]; [off] is [fom_var_offsets] *)
Definition num_vdofs (off : list nat) (nvar m : nat) : outcome nat :=
  ofor nvar (fun a v => let* hi := oread off (m * nvar + v + 1) in let* lo := oread off (m * nvar + v) in Ok (a + (hi - lo))) 0.

(** src/rom_handler.cpp:98-154 [ParseInputs]: number of basis vectors and dimension of every reference block.
    [dict = None]: the configuration has no list basis/tags. *)
Definition parse_basis (comps vars : list string) (sep : bool) (types off : list nat) (default : Z)
    (dict : option (list tag_entry)) : outcome (list nat * list nat) :=
  let nvar := List.length vars in
  let nref := if sep then List.length comps * nvar else List.length comps in
  oassert (0 <? List.length types) (
  oassert (0 <? nref) (
  oassert (match dict with None => (0 <? default)%Z | Some _ => true end) (
  let* l := omap (fun b =>
    let c := if sep then b / nvar else b in
    let* cn := oread comps c in
    let* vn := (if sep then oread vars (b mod nvar) else Ok ""%string) in
    let n := look_up (print_tag (tag_for_component cn vn)) default (match dict with Some d => d | None => [] end) in
    oassert (0 <=? n)%Z (
    match first_sub types c 0 with
    | None => Abort
    | Some m =>
        let* d := (if sep then
                     let* hi := oread off (m * nvar + b mod nvar + 1) in
                     let* lo := oread off (m * nvar + b mod nvar) in Ok (hi - lo)
                   else num_vdofs off nvar m) in
        Ok (n, d)
    end)) (seq 0 nref) in
  oassert (forallb (fun p => (0 <? fst p)%Z && (0 <? snd p)) l) (
  Ok (map (fun p => Z.to_nat (fst p)) l, map snd l))))).

(** ** Reduced bases *)

(** [carom_ref_basis], [ref_basis], [dom_basis] (indices of the matrices the pointers refer to), offsets *)
Record romst := RomSt { rs_h : rom; rs_loaded : bool; rs_carom : list rmat; rs_ref : list dmat; rs_dom : list nat;
                        rs_off : list nat; rs_coff : list nat; rs_nbasis : list nat }.

(** [MFEMROMHandler] constructor, as far as the layout is concerned *)
Definition rom_init (h : rom) : outcome romst :=
  let* (off, coff, nbasis) := set_block_sizes h in Ok (RomSt h false [] [] [] off coff nbasis).

(** src/rom_handler.cpp:238-274 and 373-398 [LoadReducedBasis]: the base class returns at once when the basis
    is loaded, the derived class goes on *)
Definition load_reduced_basis (files : list rmat) (s : romst) : outcome romst :=
  let h := rs_h s in
  let carom := if rs_loaded s then rs_carom s else files in
  let* ref := omap (fun c => copy_matrix c (DMat (rm_r c) (rm_c c) (repeat 0%R (rm_r c * rm_c c)))) carom in
  let* dom := omap (fun k =>
    let* (m, v) := dom_var h k in
    let* c := oread (rh_types h) m in
    let idx := if rh_sep h then c * rh_nvar h + Z.to_nat v else c in
    let* _ := oread ref idx in Ok idx) (seq 0 (num_blocks h)) in
  Ok (RomSt h true carom ref dom (rs_off s) (rs_coff s) (rs_nbasis s)).

(** [DenseMatrix::SetSubMatrix(ibeg, jbeg, A)] *)
Definition dm_setsub (m : dmat) (ibeg jbeg : nat) (a : dmat) : outcome dmat :=
  ofor (dm_h a) (fun m i => ofor (dm_w a) (fun m j => let* x := dm_get a i j in dm_put m (ibeg + i) (jbeg + j) x) m) m.

(** src/rom_handler.cpp:1066-1088 [AppendReferenceBasis] *)
Definition append_reference_basis (s : romst) (idx : nat) (mat : dmat) : outcome romst :=
  let h := rs_h s in
  oassert (rs_loaded s) (
  oassert (idx <? num_ref_blocks h) (
  let* r := oread (rs_ref s) idx in
  let* n := oread (rh_nb h) idx in
  oassert (dm_h r =? dm_h mat) (
  oassert (dm_w r =? n) (
  let* r' := dm_setsub (dm_setsize r (dm_h r) (n + dm_w mat)) 0 0 r in
  let* r' := dm_setsub r' 0 n mat in
  let* ref := owrite (rs_ref s) idx r' in
  let* nb := owrite (rh_nb h) idx (n + dm_w mat) in
  let h' := Rom (rh_nsub h) (rh_nvar h) (rh_sep h) (rh_ord h) (rh_types h) (rh_ncomp h) nb in
  let* (off, coff, nbasis) := set_block_sizes h' in
  Ok (RomSt h' true (rs_carom s) ref (rs_dom s) off coff nbasis))))).

(** src/rom_handler.cpp:400-414 *)
Definition get_ref (s : romst) (i : nat) : outcome dmat :=
  oassert (0 <? num_ref_blocks (rs_h s)) (oassert (i <? num_ref_blocks (rs_h s)) (oread (rs_ref s) i)).
Definition get_dom (s : romst) (i : nat) : outcome dmat :=
  oassert (rs_loaded s) (oassert (i <? num_blocks (rs_h s)) (let* p := oread (rs_dom s) i in oread (rs_ref s) p)).

(** ** Vectors *)

(** [DenseMatrix::Mult], [MultTranspose] *)
Definition dm_mult (m : dmat) (x : vec) : vec :=
  map (fun i => rsum (dm_w m) (fun j => mget m i j * vnth x j)%R) (seq 0 (dm_h m)).
Definition dm_multt (m : dmat) (x : vec) : vec :=
  map (fun j => rsum (dm_h m) (fun i => mget m i j * vnth x i)%R) (seq 0 (dm_w m)).

(** src/rom_handler.cpp:450-474 (vectors): [rsize] is the size of the result vector *)
Definition project_ref_vec (s : romst) (i : nat) (v : vec) (rsize : nat) : outcome vec :=
  oassert (rs_loaded s) (oassert (i <? num_ref_blocks (rs_h s)) (
  let* b := get_ref s i in
  oassert (List.length v =? dm_h b) (oassert (rsize =? dm_w b) (Ok (dm_multt b v))))).
Definition project_dom_vec (s : romst) (i : nat) (v : vec) (rsize : nat) : outcome vec :=
  oassert (rs_loaded s) (oassert (i <? num_blocks (rs_h s)) (
  let* b := get_dom s i in
  oassert (List.length v =? dm_h b) (oassert (rsize =? dm_w b) (Ok (dm_multt b v))))).

(** src/rom_handler.cpp:494-518; [vsize] is the size of the result vector *)
Definition lift_ref_vec (s : romst) (i : nat) (r : vec) (vsize : nat) : outcome vec :=
  oassert (rs_loaded s) (oassert (i <? num_ref_blocks (rs_h s)) (
  let* b := get_ref s i in
  oassert (vsize =? dm_h b) (oassert (List.length r =? dm_w b) (Ok (dm_mult b r))))).
Definition lift_dom_vec (s : romst) (i : nat) (r : vec) (vsize : nat) : outcome vec :=
  oassert (rs_loaded s) (oassert (i <? num_blocks (rs_h s)) (
  let* b := get_dom s i in
  oassert (vsize =? dm_h b) (oassert (List.length r =? dm_w b) (Ok (dm_mult b r))))).

(** src/rom_handler.cpp:476-492 [ProjectGlobalToDomainBasis]; [junk] is the data of the new vector *)
Definition project_global (s : romst) (v : bvec) (junk : vec) : outcome bvec :=
  let h := rs_h s in
  oassert (bv_n v =? num_blocks h) (
  ofor (num_blocks h) (fun r i =>
    let* (m, w) := dom_var h i in
    let f := if rh_sep h then Z.to_nat w + m * rh_nvar h else m in
    let* x := bv_get v f in
    let* ri := bv_get r i in
    let* y := project_dom_vec s i x (List.length ri) in
    bv_put r i y) (BVec (rs_off s) junk)).

(** src/rom_handler.cpp:520-533 [LiftUpGlobal] *)
Definition lift_global (s : romst) (r v : bvec) : outcome bvec :=
  let h := rs_h s in
  oassert (bv_n r =? num_blocks h) (
  oassert (bv_n v =? num_blocks h) (
  ofor (num_blocks h) (fun v i =>
    let* (m, w) := dom_var h i in
    let f := if rh_sep h then Z.to_nat w + m * rh_nvar h else m in
    let* ri := bv_get r i in
    let* vf := bv_get v f in
    let* y := lift_dom_vec s i ri (List.length vf) in
    bv_put v f y) v)).

(** ** Operators *)

(** A freshly constructed [SparseMatrix(h, w)] *)
Definition sm_new (h w : nat) : smat := SMat h w false (fun _ _ => None).

(** src/rom_handler.cpp:712-731 [ProjectToRefBasis]: the sizes of the operator are read before the test for a
    null pointer *)
Definition project_ref_op (s : romst) (i j : nat) (mat : option operator) : outcome smat :=
  oassert (i <? num_ref_blocks (rs_h s)) (oassert (j <? num_ref_blocks (rs_h s)) (oassert (rs_loaded s) (
  let* bi := get_ref s i in
  let* bj := get_ref s j in
  match mat with
  | None => UB
  | Some A => oassert (dm_h bi =? op_h A) (oassert (dm_h bj =? op_w A) (sparse_rtap bi A bj))
  end))).

(** src/rom_handler.cpp:733-754 [ProjectToDomainBasis] *)
Definition project_dom_op (s : romst) (i j : nat) (mat : option operator) : outcome smat :=
  oassert (i <? num_blocks (rs_h s)) (oassert (j <? num_blocks (rs_h s)) (oassert (rs_loaded s) (
  let* bi := get_dom s i in
  let* bj := get_dom s j in
  match mat with
  | None => Ok (sm_new (dm_w bi) (dm_w bj))
  | Some A => oassert (dm_h bi =? op_h A) (oassert (dm_h bj =? op_w A) (sparse_rtap bi A bj))
  end))).

(** [Array2D<Operator*>] *)
Record opmat := OpMat { om_r : nat; om_c : nat; om_get : nat -> nat -> option operator }.

(** src/rom_handler.cpp:756-796: both overloads on index arrays. [Min()]/[Max()] of an empty array is [UB]. *)
Definition project_ops (proj : nat -> nat -> option operator -> outcome smat) (loaded : bool) (bound : nat)
    (idx_i idx_j : list nat) (mats : opmat) : outcome (list (list smat)) :=
  oassert loaded (
  oguard (negb (List.length idx_i =? 0)) (oassert (forallb (fun i => i <? bound) idx_i) (
  oguard (negb (List.length idx_j =? 0)) (oassert (forallb (fun j => j <? bound) idx_j) (
  oassert (List.length idx_i =? om_r mats) (oassert (List.length idx_j =? om_c mats) (
  omap (fun i => omap (fun j =>
    let* ii := oread idx_i i in
    let* jj := oread idx_j j in
    proj ii jj (om_get mats i j)) (seq 0 (om_c mats))) (seq 0 (om_r mats))))))))).


Definition project_ref_ops (s : romst) := project_ops (project_ref_op s) (rs_loaded s) (num_ref_blocks (rs_h s)).
Definition project_dom_ops (s : romst) := project_ops (project_dom_op s) (rs_loaded s) (num_blocks (rs_h s)).

(** src/rom_handler.cpp:798-832: index arrays of [ProjectComponentToRefBasis], [ProjectComponentToDomainBasis] *)
Definition comp_idx (h : rom) (c : nat) : list nat :=
  if rh_sep h then map (fun v => c * rh_nvar h + v) (seq 0 (rh_nvar h)) else [c].
(** src/rom_handler.cpp:834-874: those of [ProjectInterfaceToRefBasis], [ProjectInterfaceToDomainBasis] *)
Definition itf_idx (h : rom) (c1 c2 : nat) : list nat :=
  if rh_sep h then map (fun v => c1 * rh_nvar h + v) (seq 0 (rh_nvar h)) ++ map (fun v => c2 * rh_nvar h + v) (seq 0 (rh_nvar h))
  else [c1; c2].
(** src/rom_handler.cpp:876-892 [ProjectVariableToDomainBasis] *)
Definition var_idx (h : rom) (v : nat) : list nat := map (fun m => m * rh_nvar h + v) (seq 0 (rh_nsub h)).

Definition square (idx : list nat) (mats : opmat) : bool := (om_r mats =? List.length idx) && (om_c mats =? List.length idx).

Definition project_comp_ref (s : romst) (c : nat) (mats : opmat) :=
  let idx := comp_idx (rs_h s) c in oassert (square idx mats) (project_ref_ops s idx idx mats).
Definition project_comp_dom (s : romst) (m : nat) (mats : opmat) :=
  let idx := comp_idx (rs_h s) m in oassert (square idx mats) (project_dom_ops s idx idx mats).
Definition project_itf_ref (s : romst) (c1 c2 : nat) (mats : opmat) :=
  let idx := itf_idx (rs_h s) c1 c2 in oassert (square idx mats) (project_ref_ops s idx idx mats).
Definition project_itf_dom (s : romst) (m1 m2 : nat) (mats : opmat) :=
  let idx := itf_idx (rs_h s) m1 m2 in oassert (square idx mats) (project_dom_ops s idx idx mats).
Definition project_var_dom (s : romst) (vi vj : nat) (mats : opmat) :=
  oassert (rh_sep (rs_h s)) (
  let idx := var_idx (rs_h s) vi in oassert (square idx mats) (project_dom_ops s idx (var_idx (rs_h s) vj) mats)).

(** src/rom_handler.cpp:894-899 and 416-432 [ProjectOperatorOnReducedBasis]: the blocks of [romMat] *)
Definition project_global_op (s : romst) (mats : opmat) : outcome (list (list smat)) :=
  let n := num_blocks (rs_h s) in
  oassert (om_r mats =? n) (oassert (om_c mats =? n) (
  project_dom_ops s (seq 0 n) (seq 0 n) mats)).

(** The operator of a matrix, its transpose *)
Definition op_of (m : dmat) : operator := Op (dm_h m) (dm_w m) (dm_mult m).
Definition dm_transpose (m : dmat) : dmat :=
  DMat (dm_w m) (dm_h m) (flat_map (fun j => map (fun i => mget m j i) (seq 0 (dm_w m))) (seq 0 (dm_h m))).

Definition set2 {A} (f : nat -> nat -> option A) (i j : nat) (a : A) : nat -> nat -> option A :=
  fun x y => if (x =? i) && (y =? j) then Some a else f x y.

(** src/stokes_solver.cpp:1010-1048 [StokesSolver::ProjectOperatorOnReducedBasis] with separate variable
    bases: [mm], [bm] are the velocity and divergence blocks by subdomain *)
Definition stokes_blocks (h : rom) (mm bm : nat -> nat -> dmat) : outcome (nat -> nat -> option dmat) :=
  ofor (rh_nsub h) (fun t i => ofor (rh_nsub h) (fun t j =>
    let bt := dm_transpose (bm j i) in
    let* ui := block_index h i 0 in
    let* pi := block_index h i 1 in
    let* uj := block_index h j 0 in
    let* pj := block_index h j 1 in
    Ok (set2 (set2 (set2 t ui uj (mm i j)) pi uj (bm i j)) ui pj bt)) t) (fun _ _ => None).

Definition stokes_project (s : romst) (mm bm : nat -> nat -> dmat) : outcome (list (list smat)) :=
  let n := num_blocks (rs_h s) in
  let* t := stokes_blocks (rs_h s) mm bm in
  project_global_op s (OpMat n n (fun i j => option_map op_of (t i j))).

(** ** Ownership of the operators (heap of allocation numbers) *)

Record hp := Hp { hp_live : list nat; hp_next : nat;
                  hp_mat : option nat; hp_mono : option nat; hp_hypre : option nat; hp_mumps : option nat; hp_sol : option nat;
                  hp_loaded : bool }.

Definition h_new (live : list nat) (next : nat) : list nat * nat * option nat := (next :: live, S next, Some next).
(** [delete p]: nothing for a null pointer; [UB] when the object does not live *)
Definition h_del (live : list nat) (p : option nat) : outcome (list nat) :=
  match p with
  | None => Ok live
  | Some a => oguard (existsb (Nat.eqb a) live) (Ok (filter (fun b => negb (b =? a)) live))
  end.
Definition h_use (live : list nat) (p : option nat) : outcome unit :=
  match p with None => UB | Some a => oguard (existsb (Nat.eqb a) live) (Ok tt) end.

(** src/rom_handler.cpp:331-362: constructor *)
Definition hp_init : hp := Hp [0] 1 (Some 0) None None None None false.

(** src/rom_handler.cpp:919-933 [SetRomMat] (and 1046-1064 [SetupDirectSolver]); [fresh]: the argument is a new
    matrix whose ownership is passed, otherwise it is the current one. *)
Definition hp_set (direct : bool) (fresh : bool) (s : hp) : outcome hp :=
  let* (live, next, mat) :=
    (if fresh then
       let '(live, next, p) := h_new (hp_live s) (hp_next s) in
       let* live := h_del live (hp_mat s) in Ok (live, next, p)
     else Ok (hp_live s, hp_next s, hp_mat s)) in
  let* live := h_del live (hp_mono s) in
  let* _ := h_use live mat in
  let '(live, next, mono) := h_new live next in
  if direct then
    let* live := h_del live (hp_hypre s) in   (* [delete romMat_hypre, mumps;] deletes the first only *)
    let '(live, next, hy) := h_new live next in
    let '(live, next, mu) := h_new live next in
    Ok (Hp live next mat mono hy mu (hp_sol s) true)
  else Ok (Hp live next mat mono (hp_hypre s) (hp_mumps s) (hp_sol s) true).

(** src/rom_handler.cpp:901-917 [LoadOperatorFromFile] *)
Definition hp_load (direct : bool) (s : hp) : outcome hp :=
  let* live := h_del (hp_live s) (hp_mat s) in
  let* live := h_del live (hp_mono s) in
  let '(live, next, mat) := h_new live (hp_next s) in
  hp_set direct false (Hp live next mat (hp_mono s) (hp_hypre s) (hp_mumps s) (hp_sol s) (hp_loaded s)).

(** src/rom_handler.cpp:535-632 [Solve(U)]: the previous [reduced_sol] is not deleted *)
Definition hp_solve (direct : bool) (s : hp) : outcome hp :=
  oassert (hp_loaded s) (
  let '(live, next, sol) := h_new (hp_live s) (hp_next s) in
  let* _ := h_use live (if direct then hp_mumps s else hp_mono s) in
  Ok (Hp live next (hp_mat s) (hp_mono s) (hp_hypre s) (hp_mumps s) sol (hp_loaded s))).

(** src/rom_handler.cpp:935-956 [SaveRomSystem] *)
Definition hp_save (s : hp) : outcome hp :=
  let* s := (match hp_mono s with
             | Some _ => Ok s
             | None =>
                 let* _ := h_use (hp_live s) (hp_mat s) in
                 let '(live, next, mono) := h_new (hp_live s) (hp_next s) in
                 Ok (Hp live next (hp_mat s) mono (hp_hypre s) (hp_mumps s) (hp_sol s) (hp_loaded s))
             end) in
  oassert (match hp_sol s with Some _ => true | None => false end) (
  let* _ := h_use (hp_live s) (hp_mono s) in Ok s).

(** src/rom_handler.cpp:62-68 and 364-371: destructors; what is still alive afterwards has leaked *)
Definition hp_destroy (s : hp) : outcome (list nat) :=
  let* live := h_del (hp_live s) (hp_mat s) in
  let* live := h_del live (hp_mono s) in
  let* live := h_del live (hp_hypre s) in
  let* live := h_del live (hp_mumps s) in
  h_del live (hp_sol s).

Inductive rom_call := CLoad | CSet (fresh : bool) | CSolve | CSave.
Definition hp_step (direct : bool) (s : hp) (c : rom_call) : outcome hp :=
  match c with CLoad => hp_load direct s | CSet f => hp_set direct f s | CSolve => hp_solve direct s | CSave => hp_save s end.
Definition hp_run (direct : bool) (cs : list rom_call) : outcome (list nat) :=
  let* s := ofold (hp_step direct) cs hp_init in hp_destroy s.
