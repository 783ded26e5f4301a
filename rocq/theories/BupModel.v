(** Model of the two ways to the reduced system of the linear solvers: assembling the subdomains and projecting, or projecting
    the elements of components, boundaries and reference ports and assembling those.

    Simplifications: an integrator is its constructor call; what it yields on an element or a face is given ([numerics]), as
    the matrix added to the global one, entries being exact reals. A subdomain is a copy of its component: as many elements,
    faces and degrees of freedom; its place ([AtSub]) may influence what integrators yield. Monolithic copies, preconditioners
    and solvers are left out, as are the warnings of [SanityCheckOnCoeffs]. *)
From Coq Require Import Reals List Bool Lia Arith ZArith.
From Verif Require Import Outcome LaBase LinalgModel BlockVec RomModel MbModel EqpSpec ItfModel ProbModel BcModel.
From Verif Require CompModel TopoModel DgModel.
Import ListNotations.
Local Open Scope nat_scope.

(** ** Forms *)

(** A velocity: a function of the point, or the degrees of freedom of a grid function *)
Inductive velocity := VelFun (f : vec -> vec) | VelGrid (u : vec).
(** The integrators of the solvers with the arguments of their constructors; Lame coefficients are those of a problem or the
    constants of the solver ([None]) *)
Inductive itg :=
  | IDiffusion | IDGDiffusion (sigma kappa : R) | IItfDiffusion (sigma kappa : R)
  | IVecDiffusion (nu : R) | IDGVecDiffusion (nu sigma kappa : R) | IItfVecDiffusion (nu sigma kappa : R)
  | IDivergence (c : R) | INormalFlux | IItfNormalFlux
  | IElasticity (lm : option (sfun * sfun)) | IDGElasticity (lm : option (sfun * sfun)) (alpha kappa : R) | IItfElasticity (lm : option (sfun * sfun)) (alpha kappa : R)
  | IConvection (b : velocity) (pe : R).

Inductive locus := AtComp (c : nat) | AtSub (m : nat).

(** Contributions to the matrix of a form: element, interior face, boundary element; element matrices of an interface face *)
Record numerics := Numerics { nu_dom : itg -> locus -> nat -> nat -> nat -> R; nu_int : itg -> locus -> nat -> nat -> nat -> R;
                              nu_bdr : itg -> locus -> nat -> nat -> nat -> R; nu_itf : itg -> mat_integ }.

(** A mesh: elements, interior faces; attribute of each boundary element and whether it has a face transformation *)
Record mesh := Mesh { me_nel : nat; me_nface : nat; me_bdr : list (Z * bool) }.

(** A [BilinearForm] or [MixedBilinearFormDGExtension] and its integrators, those of the boundary with their markers *)
Record form := Form { fo_dom : list itg; fo_int : list itg; fo_bdr : list (itg * list Z) }.

(** [mfem::BilinearForm::Assemble] and src/dg_mixed_bilin.cpp:39-165, alike in what they add; [attrs] is [bdr_attributes] *)
Definition form_matrix (nu : numerics) (at_ : locus) (me : mesh) (attrs : list Z) (h w : nat) (f : form) : outcome fmat :=
  let* top := (match attrs with [] => Ok 0%Z | _ => attr_max attrs end) in
  let* ps := DgModel.mb_faces (Z.to_nat top) (map (fun x => Some (snd x)) (fo_bdr f)) (map (fun x => (Z.to_nat (fst x), snd x)) (me_bdr me)) in
  Ok (FMat h w (fun p q =>
    (lsum (fun g => rsum (me_nel me) (fun e => nu_dom nu g at_ e p q)) (fo_dom f)
     + lsum (fun g => rsum (me_nface me) (fun e => nu_int nu g at_ e p q)) (fo_int f)
     + lsum (fun ik => nu_bdr nu (nth (snd ik) (map fst (fo_bdr f)) IDiffusion) at_ (fst ik) p q) ps)%R)).

(** ** Geometry *)

(** Component meshes and their [bdr_attributes]; component of each subdomain and its row of [bdr_c2g]; global boundary
    attributes; ports with the faces of their interfaces, their types; reference ports, which name components *)
Record geometry := Geometry { g_comps : list mesh; g_attrs : list (list Z); g_types : list nat; g_c2g : list (list Z); g_gattr : list Z;
                              g_ports : list itf_port; g_ptype : list nat; g_refs : list itf_port }.

(** src/component_topology_handler.cpp:612-635 [SetupBdrAttributes]: the mesh of subdomain [m] *)
Definition sub_mesh (g : geometry) (m : nat) : outcome mesh :=
  let* c := oread (g_types g) m in
  let* me := oread (g_comps g) c in
  let* at_ := oread (g_attrs g) c in
  let* row := oread (g_c2g g) m in
  let* bdr := omap (fun x => let* a := CompModel.elem_attr (CompModel.Comp at_ (map fst (me_bdr me))) row (fst x) in Ok (a, snd x)) (me_bdr me) in
  Ok (Mesh (me_nel me) (me_nface me) bdr).
(** src/topology_handler.cpp:111-120 [UpdateBdrAttributes] *)
Definition sub_attrs (me : mesh) : list Z := TopoModel.update_attributes (map fst (me_bdr me)).
(** the space of each subdomain, from those of the components *)
Definition sub_fes (g : geometry) (cfes : list fespace) : outcome (list fespace) := omap (fun c => oread cfes c) (g_types g).

(** ** Assembly of the subdomains *)

(** integrators of domain, interior faces and boundary *)
Definition terms := (list itg * list itg * itg)%type.

(** integrators [t], one for each boundary condition on subdomain [m] *)
Definition bdr_integs (t : itg) (marks : list (list Z)) (bcs : list (nat * nat * unit)) (m : nat) : outcome (list (itg * list Z)) :=
  omap (fun b => let* mk := oread marks b in Ok (t, mk)) (flat_map (fun x => if fst (fst x) =? m then [snd (fst x)] else []) bcs).

(** src/poisson_solver.cpp:185-192, 240-253, 285-303; stokes_solver.cpp:265-279, 351-367, 409-428; linelast_solver.cpp:203-213,
    423-440, 244-264: diagonal blocks from the forms, empty matrices elsewhere *)
Definition sub_matrices (nu : numerics) (meshes : list mesh) (test trial : list fespace) (ts : nat -> outcome terms) (marks : list (list Z))
    (bcs : list (nat * nat * unit)) : outcome blockmat :=
  let n := List.length meshes in
  let* diag := omap (fun m =>
    let* me := oread meshes m in
    let* s := oread test m in
    let* t := oread trial m in
    let* (dom, int, bd) := ts m in
    let* ib := bdr_integs bd marks bcs m in
    form_matrix nu (AtSub m) me (sub_attrs me) (fe_size s) (fe_size t) (Form dom int ib)) (seq 0 n) in
  Ok (fun i j => if (i <? n) && (j <? n) then
        if i =? j then nth_error diag i
        else match nth_error test i, nth_error trial j with Some s, Some t => Some (FMat (fe_size s) (fe_size t) (fun _ _ => 0%R)) | _, _ => None end
      else None).

(** src/multiblock_solver.cpp:205-228: markers; the boundaries with conditions, found by [dom] *)
Definition sub_setup (g : geometry) (dom : list (list Z) -> outcome (list (nat * nat * unit))) : outcome (list mesh * list (list Z) * list (nat * nat * unit)) :=
  let* meshes := omap (sub_mesh g) (seq 0 (List.length (g_types g))) in
  let ms := map sub_attrs meshes in
  let* (marks, _) := setup_bc ms (g_gattr g) in
  let* bcs := dom ms in
  Ok (meshes, marks, bcs).

(** src/poisson_solver.cpp:179-196: integrators of the Poisson solver *)
Definition poisson_terms (full_dg : bool) (sigma kappa : R) (_ : nat) : outcome terms :=
  Ok ([IDiffusion], if full_dg then [IDGDiffusion sigma kappa] else [], IDGDiffusion sigma kappa).
(** src/poisson_solver.cpp:179-196, 234-254, 281-305, 333-337: [mats] after [AssembleOperator] *)
Definition poisson_full (nu : numerics) (g : geometry) (cfes : list fespace) (full_dg : bool) (sigma kappa : R)
    (types : list btype) (bdr : list (option coeff)) : outcome blockmat :=
  let* fes := sub_fes g cfes in
  let* (meshes, marks, bcs) := sub_setup g (fun ms => weak_domain ms (g_gattr g) types bdr) in
  let* A := sub_matrices nu meshes fes fes (poisson_terms full_dg sigma kappa) marks bcs in
  itf_matrices fes [nu_itf nu (IItfDiffusion sigma kappa)] (g_ports g) A.

(** src/stokes_solver.cpp:261-292: integrators of velocity and divergence *)
Definition stokes_m_terms (full_dg : bool) (vis sigma kappa : R) (_ : nat) : outcome terms :=
  Ok ([IVecDiffusion vis], if full_dg then [IDGVecDiffusion vis sigma kappa] else [], IDGVecDiffusion vis sigma kappa).
Definition stokes_b_terms (full_dg : bool) (_ : nat) : outcome terms :=
  Ok ([IDivergence (-1)], if full_dg then [INormalFlux] else [], INormalFlux).
(** src/stokes_solver.cpp:261-285, 344-368, 407-433, 504-508: [m_mats] and [b_mats] after [AssembleOperatorBase] *)
Definition stokes_full (nu : numerics) (g : geometry) (cu cp : list fespace) (full_dg : bool) (vis sigma kappa : R)
    (types : list btype) (bdr : list (option coeff)) : outcome (blockmat * blockmat) :=
  let* ufes := sub_fes g cu in
  let* pfes := sub_fes g cp in
  let* (meshes, marks, bcs) := sub_setup g (fun ms => weak_domain ms (g_gattr g) types bdr) in
  let* M := sub_matrices nu meshes ufes ufes (stokes_m_terms full_dg vis sigma kappa) marks bcs in
  let* B := sub_matrices nu meshes pfes ufes (stokes_b_terms full_dg) marks bcs in
  let* M := itf_matrices ufes [nu_itf nu (IItfVecDiffusion vis sigma kappa)] (g_ports g) M in
  let* B := mixed_matrices pfes ufes [nu_itf nu IItfNormalFlux] (g_ports g) B in
  Ok (M, B).

(** src/linelast_solver.cpp:101-113, 449-462: one pair of Lame coefficients for each subdomain *)
Definition lame (g : geometry) (s : lsolver) : list (option (sfun * sfun)) := repeat (le_mat s) (List.length (g_types g)).
(** src/linelast_solver.cpp:198-213, 432-434: integrators with entry [i] of the coefficients *)
Definition elast_terms (full_dg : bool) (lm : list (option (sfun * sfun))) (alpha kappa : R) (i : nat) : outcome terms :=
  let* l := oread lm i in
  Ok ([IElasticity l], if full_dg then [IDGElasticity l alpha kappa] else [], IDGElasticity l alpha kappa).
(** src/linelast_solver.cpp:215-216: the integrator of the interfaces has the first pair *)
Definition elast_itf (lm : list (option (sfun * sfun))) (alpha kappa : R) : outcome itg :=
  let* l := oread lm 0 in Ok (IItfElasticity l alpha kappa).
(** src/linelast_solver.cpp:198-217, 420-441, 240-266, 300-304 *)
Definition elast_full (nu : numerics) (g : geometry) (cfes : list fespace) (full_dg : bool) (alpha kappa : R) (s : lsolver) : outcome blockmat :=
  let* fes := sub_fes g cfes in
  let* (meshes, marks, bcs) := sub_setup g (fun ms => linelast_domain full_dg ms (g_gattr g) s) in
  let* it := elast_itf (lame g s) alpha kappa in
  let* A := sub_matrices nu meshes fes fes (elast_terms full_dg (lame g s) alpha kappa) marks bcs in
  itf_matrices fes [nu_itf nu it] (g_ports g) A.

(** ** Elements of the components *)

(** [SparseMatrix] as an operator *)
Definition fm_op (M : fmat) : operator :=
  Op (fm_h M) (fm_w M) (fun x => map (fun i => rsum (fm_w M) (fun j => fm_val M i j * vnth x j)%R) (seq 0 (fm_h M))).
(** [rom_handler->ProjectToRefBasis(i, j, M)] as a block *)
Definition elem_block (s : romst) (i j : nat) (M : fmat) : outcome fmat :=
  let* X := project_ref_op s i j (Some (fm_op M)) in Ok (FMat (sm_h X) (sm_w X) (sm_val X)).
Definition one_block (X : fmat) : mblocks := MBlocks 1 1 (fun i j => if (i =? 0) && (j =? 0) then Some X else None).

(** the form of component [c] without boundary integrators: src/poisson_solver.cpp:346-354, stokes_solver.cpp:527-540,
    linelast_solver.cpp:504-512 *)
Definition comp_matrix (nu : numerics) (g : geometry) (test trial : list fespace) (ts : nat -> outcome terms) (c : nat) : outcome fmat :=
  let* me := oread (g_comps g) c in
  let* at_ := oread (g_attrs g) c in
  let* s := oread test c in
  let* t := oread trial c in
  let* (dom, int, _) := ts c in
  form_matrix nu (AtComp c) me at_ (fe_size s) (fe_size t) (Form dom int []).
(** the form of boundary [b] of component [c]: src/poisson_solver.cpp:376-385, stokes_solver.cpp:592-605, linelast_solver.cpp:534-542 *)
Definition bdr_matrix (nu : numerics) (g : geometry) (test trial : list fespace) (ts : nat -> outcome terms) (c b : nat) : outcome fmat :=
  let* me := oread (g_comps g) c in
  let* at_ := oread (g_attrs g) c in
  let* a := oread at_ b in
  let* top := attr_max at_ in
  oguard (0 <? a)%Z (
  let* mk := owrite (repeat 0%Z (Z.to_nat top)) (Z.to_nat (a - 1)) 1%Z in
  let* s := oread test c in
  let* t := oread trial c in
  let* (_, _, bd) := ts c in
  form_matrix nu (AtComp c) me at_ (fe_size s) (fe_size t) (Form [] [] [(bd, mk)])).
(** component [c] and its boundaries through [f]; src/poisson_solver.cpp:344, 368-374 and the like *)
Definition all_comp (g : geometry) (f : nat -> outcome mblocks) : outcome (list mblocks) := omap f (seq 0 (List.length (g_comps g))).
Definition all_bdr (g : geometry) (f : nat -> nat -> outcome mblocks) : outcome (list (list mblocks)) :=
  omap (fun c => let* at_ := oread (g_attrs g) c in omap (f c) (seq 0 (List.length at_))) (seq 0 (List.length (g_comps g))).

(** [Array2D] of 2 x 2 *)
Definition quad {A} (f : nat -> nat -> outcome A) : outcome (list (list A)) := omap (fun i => omap (f i) [0; 1]) [0; 1].
Definition quad_get {A} (l : list (list A)) (i j : nat) : option A := match nth_error l i with Some r => nth_error r j | None => None end.
Definition deref {A} (x : option A) : outcome A := match x with Some a => Ok a | None => UB end.

(** src/poisson_solver.cpp:339-426, linelast_solver.cpp:498-584: the elements of a solver with one variable *)
Definition scalar_elems (nu : numerics) (s : romst) (g : geometry) (cfes : list fespace) (ts : nat -> outcome terms) (it : itg)
  : outcome (list mblocks * list (list mblocks) * list mblocks) :=
  oassert (rs_loaded s) (
  let* cs := all_comp g (fun c => let* M := comp_matrix nu g cfes cfes ts c in let* X := elem_block s c c M in Ok (one_block X)) in
  let* bs := all_bdr g (fun c b => let* M := bdr_matrix nu g cfes cfes ts c b in let* X := elem_block s c c M in Ok (one_block X)) in
  let* ps := omap (fun r =>
    let cidx i := if i =? 0 then ip_m1 r else ip_m2 r in
    let* P := port_matrix cfes cfes [nu_itf nu it] (ip_m1 r) (ip_m2 r) (ip_faces r) in
    let* l := quad (fun i j => let* M := deref (P i j) in elem_block s (cidx i) (cidx j) M) in
    Ok (MBlocks 2 2 (quad_get l))) (g_refs g) in
  Ok (cs, bs, ps)).

(** [Transpose] *)
Definition fm_t (M : fmat) : fmat := FMat (fm_w M) (fm_h M) (fun i j => fm_val M j i).
(** src/stokes_solver.cpp:1147-1179 [FormBlockMatrix], as one matrix *)
Definition form_block_matrix (M B Bt : fmat) : outcome fmat :=
  oassert (fm_w B =? fm_w M) (oassert (fm_h Bt =? fm_h M) (
  Ok (FMat (fm_h M + fm_h B) (fm_w M + fm_w Bt) (fun i j =>
    if i <? fm_h M then if j <? fm_w M then fm_val M i j else fm_val Bt i (j - fm_w M)
    else if j <? fm_w M then fm_val B (i - fm_h M) j else 0%R)))).

(** src/stokes_solver.cpp:546-559, 607-625, 683-700: the blocks of rows [c1], columns [c2] *)
Definition stokes_blocks (s : romst) (sep : bool) (c1 c2 : nat) (M B Bt : fmat) : outcome (nat -> nat -> option fmat) :=
  if sep then
    let* X00 := elem_block s (c1 * 2) (c2 * 2) M in
    let* X10 := elem_block s (c1 * 2 + 1) (c2 * 2) B in
    let* X01 := elem_block s (c1 * 2) (c2 * 2 + 1) Bt in
    Ok (fun i j => match i, j with 0, 0 => Some X00 | 1, 0 => Some X10 | 0, 1 => Some X01 | _, _ => None end)
  else
    let* Sy := form_block_matrix M B Bt in
    let* X := elem_block s c1 c2 Sy in
    Ok (fun i j => match i, j with 0, 0 => Some X | _, _ => None end).

(** src/stokes_solver.cpp:510-706: the elements of the Stokes solver; [sep] is [separate_variable_basis] *)
Definition stokes_elems (nu : numerics) (s : romst) (sep : bool) (g : geometry) (cu cp : list fespace) (full_dg : bool) (vis sigma kappa : R)
  : outcome (list mblocks * list (list mblocks) * list mblocks) :=
  let tm := stokes_m_terms full_dg vis sigma kappa in
  let tb := stokes_b_terms full_dg in
  let nb := if sep then 2 else 1 in
  oassert (rs_loaded s) (
  let* cs := all_comp g (fun c =>
    let* M := comp_matrix nu g cu cu tm c in
    let* B := comp_matrix nu g cp cu tb c in
    let* X := stokes_blocks s sep c c M B (fm_t B) in
    Ok (MBlocks nb nb X)) in
  let* bs := all_bdr g (fun c b =>
    let* M := bdr_matrix nu g cu cu tm c b in
    let* B := bdr_matrix nu g cp cu tb c b in
    let* X := stokes_blocks s sep c c M B (fm_t B) in
    Ok (MBlocks nb nb X)) in
  let* ps := omap (fun r =>
    let cidx i := if i =? 0 then ip_m1 r else ip_m2 r in
    let* PM := port_matrix cu cu [nu_itf nu (IItfVecDiffusion vis sigma kappa)] (ip_m1 r) (ip_m2 r) (ip_faces r) in
    let* PB := port_matrix cp cu [nu_itf nu IItfNormalFlux] (ip_m1 r) (ip_m2 r) (ip_faces r) in
    let* l := quad (fun i j =>
      let* M := deref (PM i j) in
      let* B := deref (PB i j) in
      let* B' := deref (PB j i) in
      stokes_blocks s sep (cidx i) (cidx j) M B (fm_t B')) in
    Ok (MBlocks (2 * nb) (2 * nb) (fun i j => match quad_get l (i / nb) (j / nb) with Some X => X (i mod nb) (j mod nb) | None => None end))) (g_refs g) in
  Ok (cs, bs, ps)).

(** ** The reduced system from the elements *)

(** src/multiblock_solver.cpp:273-343 with the elements of a solver *)
Definition bup_asm (s : romst) (g : geometry) (types : list btype) (bdr : list (option coeff)) (el : list mblocks * list (list mblocks) * list mblocks) : asm :=
  let '(cs, bs, ps) := el in
  Asm (rs_h s) (rs_off s) cs bs ps (g_c2g g) (g_gattr g) (map (fun c => match c with Some _ => true | None => false end) bdr) types
      (map (fun x => (ip_m1 (fst x), ip_m2 (fst x), snd x)) (combine (g_ports g) (g_ptype g))).

Definition poisson_rom (nu : numerics) (s : romst) (g : geometry) (cfes : list fespace) (full_dg : bool) (sigma kappa : R)
    (types : list btype) (bdr : list (option coeff)) : outcome blockmat :=
  let* el := scalar_elems nu s g cfes (poisson_terms full_dg sigma kappa) (IItfDiffusion sigma kappa) in
  assemble_rom_mat (bup_asm s g types bdr el).
Definition stokes_rom (nu : numerics) (s : romst) (g : geometry) (cu cp : list fespace) (full_dg : bool) (vis sigma kappa : R)
    (types : list btype) (bdr : list (option coeff)) : outcome blockmat :=
  let* el := stokes_elems nu s (rh_sep (rs_h s)) g cu cp full_dg vis sigma kappa in
  assemble_rom_mat (bup_asm s g types bdr el).
Definition elast_rom (nu : numerics) (s : romst) (g : geometry) (cfes : list fespace) (full_dg : bool) (alpha kappa : R) (ls : lsolver) : outcome blockmat :=
  let* it := elast_itf (lame g ls) alpha kappa in
  let* el := scalar_elems nu s g cfes (elast_terms full_dg (lame g ls) alpha kappa) it in
  assemble_rom_mat (bup_asm s g (le_types ls) (le_bdr ls) el).

(** src/poisson_solver.cpp:506-514, linelast_solver.cpp:487-495 [ProjectOperatorOnReducedBasis] of [mats] *)
Definition scalar_project (s : romst) (n : nat) (A : blockmat) : outcome (list (list smat)) :=
  project_global_op s (OpMat n n (fun i j => option_map fm_op (A i j))).
