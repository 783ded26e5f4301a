(** Model of the nonlinear term of the Navier-Stokes solver and of its hyper-reduction: src/steady_ns_solver.cpp.

    Simplifications: an integrator is its constructor call, the constants [zeta_coeff] and [minus_zeta] being fixed; what it yields at
    a quadrature point of an element or a face is given ([nnum]), entries being exact reals. A rule is its list of samples: forms of
    subdomains share those of their component by pointer in the code, by value here. Who owns them, precomputed coefficients, leaked
    integrators, printing and the processes other than the first are left out. *)
From Coq Require Import Reals List Bool Lia Arith ZArith String.
From Verif Require Import Outcome ConfigModel HdfModel LaBase LinalgModel BlockVec RomModel MbModel EqpSpec ItfModel ProbModel BcModel BupModel EqpModel.
Import ListNotations.
Local Open Scope nat_scope.

(** [VectorConvectionTrilinearFormIntegrator], [IncompressibleInviscidFluxNLFIntegrator], [DGLaxFriedrichsFluxIntegrator] with its
    velocity [UD] ([NULL] without) *)
Inductive nint := NConvection | NFlux | NLax (ud : option coeff).
(** include/steady_ns_solver.hpp: [OperType] *)
Inductive oper := OBase | OLax.

(** Weights of the quadrature rule of an integrator ([ir_nl], [ir_face]) and its places in a mesh *)
Record nnum := NNum { nn_w : nint -> list R; nn_sites : locus -> itype -> nint -> sites }.

(** ** Full order *)

(** [mfem::NonlinearForm] *)
Record nform := NForm { nf_dom : list nint; nf_int : list nint; nf_bdr : list (nint * list Z) }.

(** src/steady_ns_solver.cpp:493-521: [hs[m]] after [BuildDomainOperators] *)
Definition ns_domain (o : oper) (full_dg : bool) : nform :=
  match o with
  | OBase => NForm [NConvection] [] []
  | OLax => NForm [NFlux] (if full_dg then [NLax None] else []) []
  end.

(** src/steady_ns_solver.cpp:545-556: the integrator of global boundary [b] *)
Definition ns_boundary (gattr : list Z) (types : list btype) (bdr : list (option coeff)) (b : nat) : outcome nint :=
  let* t := oread types b in
  if is_neumann t then Ok (NLax None)
  else let* c := bc_at gattr bdr b in
       match c with None => Abort | Some c => Ok (NLax (Some c)) end.

(** src/steady_ns_solver.cpp:528-562 [SetupDomainBCOperators]; [ms] are the boundary attributes of the meshes *)
Definition ns_bcs (o : oper) (ms : list (list Z)) (gattr : list Z) (marks : list (list Z)) (types : list btype) (bdr : list (option coeff))
    (hs : list nform) : outcome (list nform) :=
  match o with
  | OBase => Ok hs
  | OLax => oassert (List.length hs =? List.length ms) (
      omap (fun m =>
        let* h := oread hs m in
        let* attrs := oread ms m in
        ofor (List.length gattr) (fun h b =>
          let* a := oread gattr b in
          match attr_find attrs a 0 with
          | None => Ok h
          | Some _ =>
              let* it := ns_boundary gattr types bdr b in
              let* mk := oread marks b in
              Ok (NForm (nf_dom h) (nf_int h) (nf_bdr h ++ [(it, mk)]))
          end) h) (seq 0 (List.length ms)))
  end.

(** src/steady_ns_solver.cpp:487-562, multiblock_solver.cpp:205-228: meshes, markers, nonlinear forms of the subdomains *)
Definition ns_forms (g : geometry) (o : oper) (full_dg : bool) (types : list btype) (bdr : list (option coeff)) : outcome (list mesh * list (list Z) * list nform) :=
  let* meshes := omap (sub_mesh g) (seq 0 (List.length (g_types g))) in
  let ms := map sub_attrs meshes in
  let* (marks, _) := setup_bc ms (g_gattr g) in
  let* hs := ns_bcs o ms (g_gattr g) marks types bdr (repeat (ns_domain o full_dg) (List.length meshes)) in
  Ok (meshes, marks, hs).

(** the element vector: the weighted sum over the quadrature points, tested with [phi] *)
Definition elem_value (nm : nnum) (I : nint) (s : option site) (v phi : nat -> R) : R :=
  match s with None => 0%R | Some s => rsum (List.length (nn_w nm I)) (fun q => form_at s q (nth q (nn_w nm I) 0%R) v phi) end.
(** [mfem::NonlinearForm::Mult], tested with [phi]: elements, faces that have a transformation, marked boundary faces *)
Definition form_value (nm : nnum) (at_ : locus) (me : mesh) (F : nform) (v phi : nat -> R) : R :=
  (lsum (fun I => lsum (fun s => elem_value nm I s v phi) (nn_sites nm at_ Domain I)) (nf_dom F)
   + lsum (fun I => lsum (fun s => elem_value nm I s v phi) (nn_sites nm at_ InteriorFace I)) (nf_int F)
   + lsum (fun Im => rsum (List.length (me_bdr me)) (fun e =>
       if (nth (Z.to_nat (fst (nth e (me_bdr me) (0%Z, false)) - 1)) (snd Im) 0 =? 0)%Z then 0%R
       else elem_value nm (fst Im) (nth e (nn_sites nm at_ BdrFace (fst Im)) None) v phi)) (nf_bdr F))%R.

(** ** Hyper-reduced forms *)

Definition rule := option (list (sinfo R)).
(** [ROMNonlinearForm]: number of basis vectors, integrators with markers and samples, basis *)
Record eform := EForm { ef_n : nat; ef_dom : list (nint * rule); ef_int : list (nint * rule); ef_bdr : list (nint * list Z * rule);
                        ef_basis : option dmat }.

(** include/rom_nonlinearform.hpp:92-96, 124-128, 166-173 *)
Definition add_dom (F : eform) (I : nint) : eform := EForm (ef_n F) (ef_dom F ++ [(I, None)]) (ef_int F) (ef_bdr F) (ef_basis F).
Definition add_int (F : eform) (I : nint) : eform := EForm (ef_n F) (ef_dom F) (ef_int F ++ [(I, None)]) (ef_bdr F) (ef_basis F).
Definition add_bdr (F : eform) (I : nint) (mk : list Z) : eform :=
  EForm (ef_n F) (ef_dom F) (ef_int F) (ef_bdr F ++ [(I, mk, None)]) (ef_basis F).
(** src/rom_nonlinearform.cpp:713-722 *)
Definition put_basis (F : eform) (vsize : nat) (B : dmat) : outcome eform :=
  let* b := set_basis (ef_n F) vsize B 0 in Ok (EForm (ef_n F) (ef_dom F) (ef_int F) (ef_bdr F) (Some b)).

(** src/rom_nonlinearform.cpp:1274-1304 [GetEQPForIntegrator] *)
Definition get_rule (F : eform) (t : itype) (k : nat) : outcome rule :=
  match t with
  | Domain => oassert (k <? List.length (ef_dom F)) (let* x := oread (ef_dom F) k in Ok (snd x))
  | InteriorFace => oassert (k <? List.length (ef_int F)) (let* x := oread (ef_int F) k in Ok (snd x))
  | BdrFace => oassert (k <? List.length (ef_bdr F)) (let* x := oread (ef_bdr F) k in Ok (snd x))
  | Interface => Abort
  end.
(** include/rom_nonlinearform.hpp:98-117, 130-149, 175-194; src/rom_nonlinearform.cpp:1331-1386 *)
Definition put_rule (F : eform) (t : itype) (k : nat) (r : rule) : outcome eform :=
  match t with
  | Domain => oassert (k <? List.length (ef_dom F)) (
      let* x := oread (ef_dom F) k in let* l := owrite (ef_dom F) k (fst x, r) in Ok (EForm (ef_n F) l (ef_int F) (ef_bdr F) (ef_basis F)))
  | InteriorFace => oassert (k <? List.length (ef_int F)) (
      let* x := oread (ef_int F) k in let* l := owrite (ef_int F) k (fst x, r) in Ok (EForm (ef_n F) (ef_dom F) l (ef_bdr F) (ef_basis F)))
  | BdrFace => oassert (k <? List.length (ef_bdr F)) (
      let* x := oread (ef_bdr F) k in let* l := owrite (ef_bdr F) k (fst x, r) in Ok (EForm (ef_n F) (ef_dom F) (ef_int F) l (ef_basis F)))
  | Interface => Abort
  end.

(** ** Components *)

(** src/steady_ns_solver.cpp:1021-1024, 1077-1082: the basis of the velocity of component [c] *)
Definition comp_basis (s : romst) (c : nat) : outcome dmat :=
  let h := rs_h s in get_ref s (if rh_sep h then c * rh_nvar h else c).

(** src/steady_ns_solver.cpp:1019-1050, 1054-1078: form of component [c]; [attrs] are its boundary attributes *)
Definition alloc_comp (o : oper) (full_dg : bool) (s : romst) (cu : list fespace) (attrs : list Z) (c : nat) : outcome eform :=
  let* B := comp_basis s c in
  let* fes := oread cu c in
  let F := EForm (dm_w B) [] [] [] None in
  let F := match o with
           | OBase => add_dom F NConvection
           | OLax => let F := add_dom F NFlux in if full_dg then add_int F (NLax None) else F
           end in
  let* F := put_basis F (fe_size fes) B in
  match o with
  | OBase => Ok F
  | OLax => ofor (List.length attrs) (fun F b =>
      let* top := attr_max attrs in
      let* a := oread attrs b in
      oguard (0 <? a)%Z (
      let* mk := owrite (repeat 0%Z (Z.to_nat top)) (Z.to_nat (a - 1)) 1%Z in
      Ok (add_bdr (add_bdr F (NLax None) mk) (NLax (Some CZero)) mk))) F
  end.
(** src/steady_ns_solver.cpp:1008-1091 [AllocateROMEQPElems] *)
Definition alloc_eqps (g : geometry) (o : oper) (full_dg : bool) (s : romst) (cu : list fespace) : outcome (list eform) :=
  omap (fun c => let* attrs := oread (g_attrs g) c in alloc_comp o full_dg s cu attrs c) (seq 0 (List.length (g_comps g))).

(** src/rom_nonlinearform.cpp:724-792 [TrainEQP]: [tr] are the samples of the solver of each integrator *)
Definition train_form (tr : itype -> nat -> list (sinfo R)) (F : eform) : outcome eform :=
  let* F := ofor (List.length (ef_dom F)) (fun F k => put_rule F Domain k (Some (tr Domain k))) F in
  let* F := ofor (List.length (ef_int F)) (fun F k => put_rule F InteriorFace k (Some (tr InteriorFace k))) F in
  ofor (List.length (ef_bdr F)) (fun F k => put_rule F BdrFace k (Some (tr BdrFace k))) F.
(** src/steady_ns_solver.cpp:1093-1122 [TrainROMEQPElems] *)
Definition train_eqps (tr : nat -> itype -> nat -> list (sinfo R)) (E : list eform) : outcome (list eform) :=
  omap (fun c => let* F := oread E c in train_form (tr c) F) (seq 0 (List.length E)).

(** ** Files *)

(** src/steady_ns_solver.cpp:1194-1210: integrators of component [name] with [nb] boundaries and their names in the file *)
Definition rule_keys (o : oper) (full_dg : bool) (name : string) (nb : nat) : list (itype * nat * string) :=
  (Domain, 0, name ++ "_integ0")%string ::
  match o with
  | OBase => []
  | OLax => (if full_dg then [(InteriorFace, 0, name ++ "_integ1")%string] else []) ++
      flat_map (fun b => [(BdrFace, 2 * b, name ++ "_bdr" ++ index_key b); (BdrFace, 2 * b + 1, name ++ "_zero" ++ index_key b)])%string (seq 0 nb)
  end.

(** src/rom_nonlinearform.cpp:1306-1329 [SaveEQPForIntegrator] *)
Definition save_rule (F : eform) (grp : hgroup R) (k : itype * nat * string) : outcome (hgroup R) :=
  let '(t, i, nm) := k in
  let* r := get_rule F t i in
  match r with None => UB | Some l => write_samples grp nm t l end.
(** src/rom_nonlinearform.cpp:1331-1386 [LoadEQPForIntegrator] *)
Definition load_rule (grp : hgroup R) (F : eform) (k : itype * nat * string) : outcome eform :=
  let '(t, i, nm) := k in
  let* _ := get_rule F t i in
  let* l := read_samples grp nm t in put_rule F t i (Some l).

(** Names of the components, boundaries of each, reference ports *)
Definition ref_name (names : list string) (p : nat * nat * nat * nat) : outcome string :=
  let '(c1, c2, a1, a2) := p in
  let* n1 := oread names c1 in let* n2 := oread names c2 in Ok (port_name n1 n2 a1 a2).

(** src/rom_interfaceform.cpp:703-726; [rs] are the samples of the reference ports *)
Definition save_itf (names : list string) (refs : list (nat * nat * nat * nat)) (rs : list rule) : outcome (hgroup R) :=
  ofor (List.length refs) (fun grp p =>
    let* i := oread refs p in
    let* nm := ref_name names i in
    let* r := oread rs p in
    match r with None => UB | Some l => write_samples grp nm Interface l end) empty_group.
(** src/rom_interfaceform.cpp:728-755 *)
Definition load_itf (names : list string) (refs : list (nat * nat * nat * nat)) (grp : hgroup R) (rs : list rule) : outcome (list rule) :=
  ofor (List.length refs) (fun rs p =>
    let* i := oread refs p in
    let* nm := ref_name names i in
    let* l := read_samples grp nm Interface in owrite rs p (Some l)) rs.

(** src/steady_ns_solver.cpp:1164-1221 [SaveEQPElems]; [nbs] are the numbers of boundary attributes of the components *)
Definition save_eqps (o : oper) (full_dg : bool) (names : list string) (nbs : list nat) (refs : list (nat * nat * nat * nat))
    (E : list eform) (rs : list rule) : outcome (hgroup R) :=
  oassert (List.length E =? List.length names) (
  let* grp := h5_create_attr empty_group "number_of_components" (Z.of_nat (List.length names)) in
  let* grp := ofor (List.length names) (fun grp c =>
    let* F := oread E c in
    let* nm := oread names c in
    let* nb := oread nbs c in
    ofold (save_rule F) (rule_keys o full_dg nm nb) grp) grp in
  let* file := h5_create empty_group "components" (Grp (attrs grp) (links grp)) in
  match o with
  | OBase => Ok file
  | OLax => let* ig := save_itf names refs rs in h5_create file "interface_integ0" (Grp (attrs ig) (links ig))
  end).

(** src/steady_ns_solver.cpp:1223-1291 [LoadEQPElems] *)
Definition load_eqps (o : oper) (full_dg : bool) (names : list string) (nbs : list nat) (refs : list (nat * nat * nat * nat))
    (file : hgroup R) (E : list eform) (rs : list rule) : outcome (list eform * list rule) :=
  let* grp := h5_open_group file "components" in
  let* n := h5_read_attr grp "number_of_components" in
  oassert (Z.of_nat (List.length names) <=? n)%Z (
  oassert (List.length E =? List.length names) (
  let* E := omap (fun c =>
    let* F := oread E c in
    let* nm := oread names c in
    let* nb := oread nbs c in
    ofold (load_rule grp) (rule_keys o full_dg nm nb) F) (seq 0 (List.length names)) in
  match o with
  | OBase => Ok (E, rs)
  | OLax =>
      let* ig := h5_open_group file "interface_integ0" in
      let* rs := load_itf names refs ig rs in Ok (E, rs)
  end)).

(** ** Subdomains *)

(** src/steady_ns_solver.cpp:1347-1355: the integrator of global boundary [gi] *)
Definition rom_boundary (gattr : list Z) (types : list btype) (bdr : list (option coeff)) (gi : nat) : outcome nint :=
  let* t := oread types gi in
  if is_neumann t then Ok (NLax None)
  else let* c := bc_at gattr bdr gi in
       match c with None => Abort | Some c => Ok (NLax (Some c)) end.

(** src/steady_ns_solver.cpp:1360 *)
Definition rule_kind (t : btype) : nat := match t with BZero => 1 | _ => 0 end.

(** src/steady_ns_solver.cpp:1339-1366: boundary terms, from those of the component [C] *)
Definition assemble_bdr (gattr : list Z) (marks : list (list Z)) (types : list btype) (bdr : list (option coeff)) (row : list Z) (C F : eform) : outcome eform :=
  let* (F, _) := ofor (List.length row) (fun '(F, idx) b =>
    let* a := oread row b in
    match attr_find gattr a 0 with
    | None => Ok (F, idx)
    | Some gi =>
        let* it := rom_boundary gattr types bdr gi in
        let* mk := oread marks gi in
        let F := add_bdr F it mk in
        let* t := oread types gi in
        let* r := get_rule C BdrFace (2 * b + rule_kind t) in
        let* F := put_rule F BdrFace idx r in
        Ok (F, S idx)
    end) (F, 0) in
  Ok F.

(** src/steady_ns_solver.cpp:1303-1378 [AssembleROMEQPOper]: the form of subdomain [m] *)
Definition assemble_sub (g : geometry) (o : oper) (full_dg : bool) (s : romst) (cu : list fespace) (marks : list (list Z)) (types : list btype)
    (bdr : list (option coeff)) (E : list eform) (m : nat) : outcome eform :=
  let* c := oread (g_types g) m in
  let* idx := block_index (rs_h s) m 0 in
  let* B := get_dom s idx in
  let* fes := oread cu c in
  let* C := oread E c in
  let F := EForm (dm_w B) [] [] [] None in
  let* F := (match o with
    | OBase =>
        let F := add_dom F NConvection in
        let* r := get_rule C Domain 0 in put_rule F Domain 0 r
    | OLax =>
        let F := add_dom F NFlux in
        let F := if full_dg then add_int F (NLax None) else F in
        let* r := get_rule C Domain 0 in
        let* F := put_rule F Domain 0 r in
        let* F := (if full_dg then let* r := get_rule C InteriorFace 0 in put_rule F InteriorFace 0 r else Ok F) in
        let* row := oread (g_c2g g) m in
        assemble_bdr (g_gattr g) marks types bdr row C F
    end) in
  put_basis F (fe_size fes) B.
Definition assemble_eqps (g : geometry) (o : oper) (full_dg : bool) (s : romst) (cu : list fespace) (marks : list (list Z)) (types : list btype)
    (bdr : list (option coeff)) (E : list eform) : outcome (list eform) :=
  oassert (List.length E =? rh_ncomp (rs_h s)) (omap (assemble_sub g o full_dg s cu marks types bdr E) (seq 0 (List.length (g_types g)))).

(** The integrators of a form on the mesh [me] at [at_] *)
Definition integs (nm : nnum) (at_ : locus) (me : mesh) (F : eform) : list integ :=
  map (fun x => Integ (Some (List.length (nn_w nm (fst x)))) (nn_sites nm at_ Domain (fst x)) [] None (snd x)) (ef_dom F) ++
  map (fun x => Integ (Some (List.length (nn_w nm (fst x)))) (nn_sites nm at_ InteriorFace (fst x)) [] None (snd x)) (ef_int F) ++
  map (fun x => Integ (Some (List.length (nn_w nm (fst (fst x))))) (nn_sites nm at_ BdrFace (fst (fst x))) (map fst (me_bdr me)) (Some (snd (fst x))) (snd x)) (ef_bdr F).
(** src/rom_nonlinearform.cpp:46-345, 347-624: [Mult] and [GetGradient] of the form of a subdomain *)
Definition eform_mult (nm : nnum) (at_ : locus) (me : mesh) (F : eform) (x y : vec) : outcome vec :=
  form_mult (ef_n F) (ef_basis F) (integs nm at_ me F) x y.
Definition eform_gradient (nm : nnum) (at_ : locus) (me : mesh) (F : eform) (G : option dmat) (x : vec) : outcome dmat :=
  form_gradient (ef_n F) (ef_basis F) (integs nm at_ me F) G x.
