(** Model of src/multiblock_solver.cpp: vectors of several variables on several subdomains, boundary types,
    assembly of the ROM matrix, visualization, solution files; and of the offsets the solvers set up.

    Simplifications: sizes are [nat]; entries are exact reals; a sparse matrix is its values (whether an entry
    is stored is not kept); an HDF5 file is the solution data set and the two attributes the code writes. *)
From Coq Require Import Reals List Bool Lia Arith ZArith String.
From Verif Require Import Outcome ConfigModel LaBase BlockVec TagsModel RomModel.
Import ListNotations.
Local Open Scope list_scope.
Local Open Scope nat_scope.

(** ** Vectors by variable *)

(** src/multiblock_solver.cpp:135-150 [GetVariableVector]; the assignment to a view of equal size copies *)
Definition get_variable_vector (ns nv : nat) (vi : Z) (global var : bvec) : outcome bvec :=
  oassert ((0 <=? vi) && (vi <? Z.of_nat nv))%Z (
  oassert (bv_n global =? nv * ns) (
  oassert (bv_n var =? ns) (
  ofor ns (fun var m =>
    let* dst := bv_get var m in
    let* src := bv_get global (nv * m + Z.to_nat vi) in
    oassert (List.length dst =? List.length src) (bv_put var m src)) var))).

(** src/multiblock_solver.cpp:152-167 [SetVariableVector] *)
Definition set_variable_vector (ns nv : nat) (vi : Z) (var global : bvec) : outcome bvec :=
  oassert ((0 <=? vi) && (vi <? Z.of_nat nv))%Z (
  oassert (bv_n global =? nv * ns) (
  oassert (bv_n var =? ns) (
  ofor ns (fun global m =>
    let* src := bv_get var m in
    let* dst := bv_get global (nv * m + Z.to_nat vi) in
    oassert (List.length src =? List.length dst) (bv_put global (nv * m + Z.to_nat vi) src)) global))).

(** src/multiblock_solver.cpp:169-185 [SortBySubdomains] *)
Definition sort_by_subdomains (ns nv : nat) (by_var by_sub : bvec) : outcome bvec :=
  oassert (bv_n by_var =? nv * ns) (
  oassert (bv_n by_sub =? nv * ns) (
  ofor ns (fun by_sub m => ofor nv (fun by_sub v =>
    let* src := bv_get by_var (ns * v + m) in
    let* dst := bv_get by_sub (nv * m + v) in
    oassert (List.length src =? List.length dst) (bv_put by_sub (nv * m + v) src)) by_sub) by_sub)).

(** src/multiblock_solver.cpp:187-203 [SortByVariables] *)
Definition sort_by_variables (ns nv : nat) (by_sub by_var : bvec) : outcome bvec :=
  oassert (bv_n by_var =? nv * ns) (
  oassert (bv_n by_sub =? nv * ns) (
  ofor ns (fun by_var m => ofor nv (fun by_var v =>
    let* dst := bv_get by_var (ns * v + m) in
    let* src := bv_get by_sub (nv * m + v) in
    oassert (List.length dst =? List.length src) (bv_put by_var (ns * v + m) src)) by_var) by_var)).

(** ** Offsets *)

(** src/poisson_solver.cpp:107-126, src/linelast_solver.cpp:79-98 [InitVariables]: [vsize], [ndofs] by
    subdomain; result: [block_offsets], [var_offsets] (= [domain_offsets]), [num_vdofs] *)
Definition scalar_offsets (ns udim : nat) (vsize ndofs : nat -> nat) : outcome (list nat * list nat * list nat) :=
  let* (bo, vo, nd) := ofor ns (fun '(bo, vo, nd) i =>
    let* vo := owrite vo (i + 1) (vsize i) in
    let* nd := owrite nd i (vsize i) in
    let* bo := ofor udim (fun bo d => owrite bo (d + i * udim + 1) (ndofs i)) bo in
    Ok (bo, vo, nd)) (repeat 0 (udim * ns + 1), repeat 0 (ns + 1), repeat 0 ns) in
  Ok (psum 0 bo, psum 0 vo, nd).

(** src/stokes_solver.cpp:144-190 [InitVariables]: [vsize], [ndofs] by subdomain and variable, [vdim] by
    variable, [udim] the declared number of scalar components *)
Record flow_off := FlowOff { fo_block : list nat; fo_var : list nat; fo_vdofs : list nat; fo_dom : list nat;
                             fo_u : list nat; fo_p : list nat; fo_vblock : list nat }.
Definition flow_offsets (ns nv udim : nat) (vsize ndofs : nat -> nat -> nat) (vdim : nat -> nat) : outcome flow_off :=
  let* (bo, vo, dom, uo, po, bi, vi) := ofor ns (fun '(bo, vo, dom, uo, po, bi, vi) m =>
    let* (bo, vo, dom, bi, vi) := ofor nv (fun '(bo, vo, dom, bi, vi) v =>
      let sp := if v =? 0 then 0 else 1 in   (* (v == 0) ? ufes[m] : pfes[m] *)
      let* vo := owrite vo vi (vsize m sp) in
      let* (bo, bi) := ofor (vdim v) (fun '(bo, bi) d => let* bo := owrite bo bi (ndofs m sp) in Ok (bo, bi + 1)) (bo, bi) in
      let* x := oread dom (m + 1) in
      let* dom := owrite dom (m + 1) (x + vsize m sp) in
      Ok (bo, vo, dom, bi, vi + 1)) (bo, vo, dom, bi, vi) in
    let* uo := owrite uo (m + 1) (vsize m 0) in
    let* po := owrite po (m + 1) (vsize m 1) in
    Ok (bo, vo, dom, uo, po, bi, vi))
    (repeat 0 (udim * ns + 1), repeat 0 (nv * ns + 1), repeat 0 (ns + 1), repeat 0 (ns + 1), repeat 0 (ns + 1), 1, 1) in
  let uo := psum 0 uo in
  let po := psum 0 po in
  Ok (FlowOff (psum 0 bo) (psum 0 vo) (firstn ns (skipn 1 dom)) (psum 0 dom) uo po [0; last uo 0; last uo 0 + last po 0]).

(** src/stokes_solver.cpp:717-724 [Solve]: offsets sorted by variable *)
Definition offsets_byvar (ns nv : nat) (uo po : list nat) : outcome (list nat) :=
  ofor ns (fun l k =>
    let* u := oread uo (k + 1) in
    let* l := owrite l (k + 1) u in
    let* p := oread po (k + 1) in
    owrite l (k + 1 + ns) (p + last uo 0)) (repeat 0 (nv * ns + 1)).

(** src/stokes_solver.cpp:796-803 [Solve]: the mean of the pressure is removed from the vector sorted by
    variable; [vb] are [vblock_offsets] *)
Definition remove_mean (vb : list nat) (sol : vec) : outcome vec :=
  let* a := oread vb 1 in
  let* e := oread vb 2 in
  oguard ((a <=? e) && (e <=? List.length sol)) (
  let p := firstn (e - a) (skipn a sol) in
  let mean := (rsum (e - a) (vnth p) / INR (e - a))%R in
  Ok (firstn a sol ++ map (fun x => x - mean)%R p ++ skipn e sol)).

(** src/stokes_solver.cpp:707-815 [Solve] without the linear solver: [solve] is what it returned *)
Definition flow_solve (ns nv : nat) (fo : flow_off) (pres_dbc : bool) (solve : vec -> vec) (rhs u : bvec) (junk : vec) : outcome bvec :=
  let* off := offsets_byvar ns nv (fo_u fo) (fo_p fo) in
  let* r := sort_by_variables ns nv rhs (BVec off junk) in
  let sol := solve (bv_dat r) in
  let* sol := (if pres_dbc then Ok sol else remove_mean (fo_vblock fo) sol) in
  sort_by_subdomains ns nv (BVec off sol) u.

(** ** Boundary types *)

(** include/parameterized_problem.hpp:212-219 *)
Inductive btype := BZero | BDirichlet | BNeumann | BNone.

(** [Array<int>::Max] *)
Definition attr_max (l : list Z) : outcome Z :=
  match l with [] => UB | x :: t => Ok (fold_left Z.max t x) end.

(** src/multiblock_solver.cpp:205-227 [SetupBCVariables] *)
Definition setup_bc (mesh_attrs : list (list Z)) (gattr : list Z) : outcome (list (list Z) * list btype) :=
  let* mx := ofold (fun a l => let* x := attr_max l in Ok (Z.max a x)) mesh_attrs (-1)%Z in
  let* markers := omap (fun a => oassert ((0 <? a) && (a <=? mx))%Z (owrite (repeat 0%Z (Z.to_nat mx)) (Z.to_nat (a - 1)) 1%Z)) gattr in
  Ok (markers, repeat BNone (List.length gattr)).

(** src/multiblock_solver.cpp:229-239 [SetBdrType] *)
Definition set_bdr_type (gattr : list Z) (types : list btype) (ty : btype) (idx : Z) : outcome (list btype) :=
  oassert (List.length types =? List.length gattr) (
  if (idx <? 0)%Z then Ok (map (fun _ => ty) types)
  else oassert (idx <? Z.of_nat (List.length gattr))%Z (owrite types (Z.to_nat idx) ty)).

(** [Array<int>::Find] *)
Fixpoint attr_find (l : list Z) (a : Z) (i : nat) : option nat :=
  match l with [] => None | x :: t => if (x =? a)%Z then Some i else attr_find t a (S i) end.

(** src/multiblock_solver.cpp:495-505 [SetParameterizedProblem] *)
Definition set_problem (gattr : list Z) (battr : list Z) (ptypes : list btype) (types : list btype) : outcome (list btype) :=
  oassert (List.length types =? List.length gattr) (
  ofor (List.length gattr) (fun types b =>
    let* a := oread gattr b in
    match attr_find battr a 0 with
    | None => Ok types
    | Some i => let* t := oread ptypes i in owrite types b t
    end) types).

(** ** The global ROM matrix *)

(** A block: its size and its values. *)
Record fmat := FMat { fm_h : nat; fm_w : nat; fm_val : nat -> nat -> R }.
(** include/linalg_utils.hpp:49-118 [MatrixBlocks] *)
Record mblocks := MBlocks { mb_r : nat; mb_c : nat; mb_get : nat -> nat -> option fmat }.
(** [mfem::BlockMatrix] *)
Definition blockmat := nat -> nat -> option fmat.

Definition bm_set (B : blockmat) (i j : nat) (M : fmat) : blockmat :=
  fun x y => if (x =? i) && (y =? j) then Some M else B x y.

(** src/linalg_utils.cpp:137-165 [AddToBlockMatrix]; [off] are the offsets of rows and columns *)
Definition add_to_block_matrix (off ridx cidx : list nat) (mats : mblocks) (B : blockmat) : outcome blockmat :=
  let nb := List.length off - 1 in
  oassert (List.length ridx =? mb_r mats) (
  oassert (List.length cidx =? mb_c mats) (
  oguard (negb (List.length ridx =? 0)) (oassert (forallb (fun i => i <? nb) ridx) (
  oguard (negb (List.length cidx =? 0)) (oassert (forallb (fun i => i <? nb) cidx) (
  ofor (List.length ridx) (fun B i => ofor (List.length cidx) (fun B j =>
    match mb_get mats i j with
    | None => Ok B
    | Some M =>
        let* r := oread ridx i in
        let* c := oread cidx j in
        let* r0 := oread off r in let* r1 := oread off (r + 1) in
        let* c0 := oread off c in let* c1 := oread off (c + 1) in
        oassert ((fm_h M =? r1 - r0) && (fm_w M =? c1 - c0)) (
        let old := match B r c with Some X => X | None => FMat (r1 - r0) (c1 - c0) (fun _ _ => 0%R) end in
        Ok (bm_set B r c (FMat (fm_h old) (fm_w old) (fun p q => fm_val old p q + fm_val M p q)%R)))
    end) B) B)))))).

(** What [AssembleROMMat] uses: layout and offsets of the ROM handler; component, boundary and port elements;
    for every subdomain the global attribute of each boundary of its component; global attributes, whether a
    condition exists on them, their types; the ports (first mesh, second mesh, type). *)
Record asm := Asm { as_rom : rom; as_off : list nat; as_comp : list mblocks; as_bdr : list (list mblocks);
                    as_port : list mblocks; as_c2g : list (list Z); as_gattr : list Z; as_bc : list bool;
                    as_btype : list btype; as_ports : list (nat * nat * nat) }.

Definition is_neumann (t : btype) : bool := match t with BNeumann => true | _ => false end.

(** number of basis blocks of a subdomain *)
Definition num_block (h : rom) : nat := if rh_sep h then rh_nvar h else 1.
Definition midx (h : rom) (m : nat) : outcome (list nat) := omap (fun v => block_index h m (Z.of_nat v)) (seq 0 (num_block h)).

(** src/multiblock_solver.cpp:285-321: component and boundary matrices of subdomain [m] *)
Definition assemble_sub (a : asm) (B : blockmat) (m : nat) : outcome blockmat :=
  let* c := oread (rh_types (as_rom a)) m in
  let* idx := midx (as_rom a) m in
  let* cm := oread (as_comp a) c in
  let* B := add_to_block_matrix (as_off a) idx idx cm B in
  let* c2g := oread (as_c2g a) m in
  ofor (List.length c2g) (fun B b =>
    let* ga := oread c2g b in
    match attr_find (as_gattr a) ga 0 with
    | None => Ok B
    | Some g =>
        let* bc := oread (as_bc a) g in
        if negb bc then Ok B
        else
          let* t := oread (as_btype a) g in
          if is_neumann t then Ok B
          else
            let* bl := oread (as_bdr a) c in
            let* bm := oread bl b in
            add_to_block_matrix (as_off a) idx idx bm B
    end) B.

(** src/multiblock_solver.cpp:323-342: matrix of port [p] *)
Definition assemble_port (a : asm) (B : blockmat) (p : nat * nat * nat) : outcome blockmat :=
  let '(m1, m2, ty) := p in
  let* pm := oread (as_port a) ty in
  let* i1 := midx (as_rom a) m1 in
  let* i2 := midx (as_rom a) m2 in
  add_to_block_matrix (as_off a) (i1 ++ i2) (i1 ++ i2) pm B.

(** src/multiblock_solver.cpp:273-343 [AssembleROMMat] on a new block matrix *)
Definition assemble_rom_mat (a : asm) : outcome blockmat :=
  let* B := ofor (rh_nsub (as_rom a)) (assemble_sub a) (fun _ _ => None) in
  ofold (assemble_port a) (as_ports a) B.

(** ** Visualization *)

Record visual := Visual { vi_save : bool; vi_unified : bool; vi_offset : Z; vi_interval : Z }.

Definition vis_check (ns : nat) (v : visual) : bool :=
  ((0 <=? vi_offset v) && (vi_offset v <? Z.of_nat ns) && (0 <? vi_interval v) && (vi_interval v <=? Z.of_nat ns))%Z.
Definition vis_skip (v : visual) (m : nat) : bool :=
  (Z.of_nat m <? vi_offset v)%Z || negb (Z.rem (Z.of_nat m) (vi_interval v) =? 0)%Z.

(** src/multiblock_solver.cpp:345-455 [InitVisualization]: which collections exist ([SetSize(1)] for the
    unified view). Without [visual.save] nothing is created. *)
Definition vis_init (ns : nat) (v : visual) : outcome (list bool) :=
  if negb (vi_save v) then Ok []
  else if vi_unified v then Ok [true]
  else oassert (vis_check ns v) (Ok (map (fun m => negb (vis_skip v m)) (seq 0 ns))).

(** src/multiblock_solver.cpp:457-480 [SaveVisualization]: the collections saved *)
Definition vis_save (ns : nat) (v : visual) (colls : list bool) : outcome (list nat) :=
  if negb (vi_save v) then Ok []
  else oassert (vi_unified v || vis_check ns v) (
    ofor (List.length colls) (fun saved m =>
      if negb (vi_unified v) && vis_skip v m then Ok saved
      else let* c := oread colls m in oassert c (Ok (saved ++ [m]))) []).

(** src/multiblock_solver.cpp:482-493 [SaveVisualization(step, time)]: a null collection is dereferenced *)
Definition vis_save_step (ns : nat) (v : visual) (colls : list bool) : outcome (list nat) :=
  if negb (vi_save v) then Ok []
  else
    let* _ := ofor (List.length colls) (fun _ m => let* c := oread colls m in oguard c (Ok tt)) tt in
    vis_save ns v colls.

(** ** Solution files *)

(** The data set "solution" (dimensions and values) and the attributes. *)
Record sfile := SFile { sf_sol : option (list nat * vec); sf_step : option Z; sf_time : option R }.
Definition files := string -> option sfile.
Definition fput (fs : files) (n : string) (f : sfile) : files := fun x => if String.eqb x n then Some f else fs x.

(** [save_sol], [sol_dir], [sol_prefix]; [can] tells which names can be created *)
Record solcfg := SolCfg { sc_save : bool; sc_dir : string; sc_prefix : string; sc_can : string -> bool }.
Definition sol_name (c : solcfg) (name : string) : string :=
  if String.eqb name "" then (sc_dir c ++ "/" ++ sc_prefix c ++ ".h5")%string else name.

(** src/multiblock_solver.cpp:507-528 [SaveSolution] *)
Definition save_solution (c : solcfg) (fs : files) (name : string) (u : vec) : outcome files :=
  if negb (sc_save c) then Ok fs
  else let n := sol_name c name in
       oassert (sc_can c n) (Ok (fput fs n (SFile (Some ([List.length u], u)) None None))).

(** include/hdf5_utils.hpp:111-124 [WriteAttribute]: creating an existing attribute fails *)
Definition add_step (f : sfile) (s : Z) : outcome sfile :=
  match sf_step f with None => Ok (SFile (sf_sol f) (Some s) (sf_time f)) | Some _ => Abort end.
Definition add_time (f : sfile) (t : R) : outcome sfile :=
  match sf_time f with None => Ok (SFile (sf_sol f) (sf_step f) (Some t)) | Some _ => Abort end.

(** src/multiblock_solver.cpp:530-547 [SaveSolutionWithTime]: the file is opened under the name given *)
Definition save_with_time (c : solcfg) (fs : files) (name : string) (u : vec) (step : Z) (time : R) : outcome files :=
  let* fs := save_solution c fs name u in
  match fs name with
  | None => Abort
  | Some f => let* f := add_step f step in let* f := add_time f time in Ok (fput fs name f)
  end.

(** src/multiblock_solver.cpp:549-579 [LoadSolution]; [u] is the current solution *)
Definition load_solution (fs : files) (name : string) (u : vec) : outcome vec :=
  match fs name with
  | None => Abort
  | Some f => match sf_sol f with
              | None => Abort
              | Some (dims, d) => if match dims with [n] => n =? List.length u | _ => false end then Ok d else Abort
              end
  end.

(** src/multiblock_solver.cpp:581-598 [LoadSolutionWithTime] *)
Definition load_with_time (fs : files) (name : string) (u : vec) : outcome (vec * Z * R) :=
  let* d := load_solution fs name u in
  match fs name with
  | Some f => match sf_step f, sf_time f with Some s, Some t => Ok (d, s, t) | _, _ => Abort end
  | None => Abort
  end.

(** ** Errors *)

(** src/multiblock_solver.cpp:720-747 [ComputeRelativeError]: [en m v] are the error and norm of a subdomain;
    a zero norm makes the quotient meaningless *)
Definition relative_error (ns nv : nat) (en : nat -> nat -> R * R) : outcome vec :=
  let* (norm, err) := ofor ns (fun '(norm, err) m => ofor nv (fun '(norm, err) v =>
    let '(e, n) := en m v in
    let* a := oread norm v in
    let* b := oread err v in
    let* norm := owrite norm v (a + n * n)%R in
    let* err := owrite err v (b + e * e)%R in
    Ok (norm, err)) (norm, err)) (repeat 0%R nv, repeat 0%R nv) in
  omap (fun v => let* n := oread norm v in let* e := oread err v in Ok (sqrt e / sqrt n)%R) (seq 0 nv).

(** ** ROM elements in a file *)

(** Elements of a component: domain, mass, boundaries; [A] is the type of a set of blocks. *)
Record comp_elem (A : Type) := CompElem { ce_dom : A; ce_mass : A; ce_bdr : list A }.
Arguments CompElem {A}. Arguments ce_dom {A}. Arguments ce_mass {A}. Arguments ce_bdr {A}.

(** A file: the groups of the components and of the ports by name, with the numbers written as attributes. *)
Record elem_file (A : Type) := ElemFile { ef_ncomp : nat; ef_comp : list (string * comp_elem A);
                                          ef_nport : nat; ef_port : list (string * A) }.
Arguments ElemFile {A}. Arguments ef_ncomp {A}. Arguments ef_comp {A}. Arguments ef_nport {A}. Arguments ef_port {A}.

Fixpoint group_find {X : Type} (l : list (string * X)) (n : string) : option X :=
  match l with [] => None | (k, x) :: t => if String.eqb k n then Some x else group_find t n end.

(** [H5Gcreate]: a name in use is refused *)
Definition group_add {X : Type} (l : list (string * X)) (n : string) (x : X) : outcome (list (string * X)) :=
  match group_find l n with Some _ => Abort | None => Ok (l ++ [(n, x)]) end.

(** src/rom_element_collection.cpp:134-138, 242-246: name of a port (components and attributes printed) *)
Definition port_name (c1 c2 : string) (a1 a2 : nat) : string :=
  (c1 ++ ":" ++ c2 ++ ("-" ++ index_key a1 ++ ":" ++ index_key a2))%string.

(** src/rom_element_collection.cpp:46-146 [Save]; [nbdr] is the number of boundary attributes of a component *)
Definition save_elems {A : Type} (names : list string) (nbdr : list nat) (ports : list string)
    (comp : list (comp_elem A)) (port : list A) : outcome (elem_file A) :=
  let* cs := ofor (List.length names) (fun l c =>
    let* n := oread names c in
    let* e := oread comp c in
    let* k := oread nbdr c in
    let* l := group_add l n e in
    oassert (List.length (ce_bdr e) =? k) (Ok l)) [] in
  let* ps := ofor (List.length ports) (fun l p =>
    let* n := oread ports p in
    let* x := oread port p in
    group_add l n x) [] in
  Ok (ElemFile (List.length names) cs (List.length ports) ps).

(** src/rom_element_collection.cpp:148-252 [Load]; line 218 is [assert(num_bdr = bdr->Size())] *)
Definition load_elems {A : Type} (names : list string) (nbdr : list nat) (ports : list string) (f : elem_file A)
  : outcome (list (comp_elem A) * list A) :=
  oassert (List.length names <=? ef_ncomp f) (
  let* comp := omap (fun c =>
    let* n := oread names c in
    match group_find (ef_comp f) n with
    | None => Abort
    | Some e =>
        let* k := oread nbdr c in
        oassert (List.length (ce_bdr e) =? k) (
        oassert (negb (k =? 0)) (Ok e))
    end) (seq 0 (List.length names)) in
  oassert (List.length ports <=? ef_nport f) (
  let* port := omap (fun p =>
    let* n := oread ports p in
    match group_find (ef_port f) n with None => Abort | Some x => Ok x end) (seq 0 (List.length ports)) in
  Ok (comp, port))).
