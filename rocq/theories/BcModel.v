(** Model of the boundary conditions of the solvers: [AddBCFunction], [SetParameterizedProblem], the integrators they lead to, the
    complementary flux of the flow solvers.

    Simplifications: a coefficient is the function it was made of; [mfem_warning] is dropped; leaked coefficients are not tracked.
    A boundary element is its attribute and its quadrature points: position, weight, weighted normal; area and fluxes use the same
    rule (stokes_solver.cpp:1377, 1410, 1436). The complementary flux, global in the program, is part of the state of the flow solver;
    [None] is a NaN or an infinity, which the comparison with the threshold does not stop. *)
From Coq Require Import Reals List Bool Lia Arith ZArith Ascii String.
From Verif Require Import Outcome LaBase MbModel ProbModel.
Import ListNotations.
Local Open Scope string_scope.
Local Open Scope list_scope.
Local Open Scope R_scope.

Inductive coeff := CZero | CScalar (f : sfun) | CVector (f : vfun).

(** src/poisson_solver.cpp:67-105, src/linelast_solver.cpp:389-407 [AddBCFunction]; stokes_solver.cpp:100-142 up to the pressure *)
Definition add_bc (gattr : list Z) (bdr : list (option coeff)) (c : coeff) (a : Z) : outcome (list (option coeff)) :=
  oassert (0 <? List.length bdr)%nat (
  if (0 <? a)%Z then match attr_find gattr a 0 with None => Ok bdr | Some i => owrite bdr i (Some c) end
  else Ok (map (fun _ => Some c) bdr)).

(** ** Poisson *)

Record psolver := PSolver { po_types : list btype; po_bdr : list (option coeff); po_rhs : list coeff }.
(** src/multiblock_solver.cpp:225-226, src/poisson_solver.cpp:59-65, 154 *)
Definition poisson_new (gattr : list Z) : psolver := PSolver (repeat BNone (List.length gattr)) (repeat None (List.length gattr)) [].

(** src/poisson_solver.cpp:567-579: what boundary [b] of the problem asks for *)
Definition poisson_case (p : problem) (b : nat) : outcome (option coeff) :=
  let* t := oread (pb_types p) b in
  match t with
  | BDirichlet => let* f := oread (pb_sbdr p) b in match f with Some f => Ok (Some (CScalar f)) | None => Abort end
  | BNeumann => Ok None
  | _ => Ok (Some CZero)
  end.
(** src/poisson_solver.cpp:550-585 [SetParameterizedProblem] *)
Definition poisson_set (gattr : list Z) (p : problem) (s : psolver) : outcome psolver :=
  let* types := set_problem gattr (pb_battr p) (pb_types p) (po_types s) in
  let bdr := map (fun _ => None) (po_bdr s) in
  let* bdr := ofor (List.length (pb_battr p)) (fun bdr b =>
    let* c := poisson_case p b in
    let* a := oread (pb_battr p) b in
    match c with None => Ok bdr | Some c => add_bc gattr bdr c a end) bdr in
  Ok (PSolver types bdr [match pb_srhs p with Some f => CScalar f | None => CZero end]).

(** ** Integrators *)

(** The loop over subdomains and global boundaries; [ms] are the boundary attributes of the meshes. *)
Definition bc_loop {A} (ms : list (list Z)) (gattr : list Z) (f : nat -> outcome (option A)) : outcome (list (nat * nat * A)) :=
  ofor (List.length ms) (fun acc m =>
    let* attrs := oread ms m in
    ofor (List.length gattr) (fun acc b =>
      let* a := oread gattr b in
      match attr_find attrs a 0 with
      | None => Ok acc
      | Some _ => let* r := f b in match r with None => Ok acc | Some r => Ok (acc ++ [(m, b, r)]) end
      end) acc) [].
(** src/poisson_solver.cpp:198-203, stokes_solver.cpp:296-302, linelast_solver.cpp:141-146 [BCExistsOnBdr], with the coefficient *)
Definition bc_at (gattr : list Z) (bdr : list (option coeff)) (b : nat) : outcome (option coeff) :=
  oassert (b <? List.length gattr)%nat (oassert (List.length bdr =? List.length gattr)%nat (oread bdr b)).

(** src/poisson_solver.cpp:212-232 [SetupRHSBCOperators], stokes_solver.cpp:311-342 *)
Definition weak_rhs (ms : list (list Z)) (gattr : list Z) (types : list btype) (bdr : list (option coeff)) : outcome (list (nat * nat * coeff)) :=
  bc_loop ms gattr (fun b =>
    let* c := bc_at gattr bdr b in
    match c with None => Ok None | Some c => let* t := oread types b in if is_neumann t then Ok None else Ok (Some c) end).
(** src/poisson_solver.cpp:234-254 [SetupDomainBCOperators], stokes_solver.cpp:344-368 *)
Definition weak_domain (ms : list (list Z)) (gattr : list Z) (types : list btype) (bdr : list (option coeff)) : outcome (list (nat * nat * unit)) :=
  bc_loop ms gattr (fun b =>
    let* c := bc_at gattr bdr b in
    match c with None => Ok None | Some _ => let* t := oread types b in if is_neumann t then Ok None else Ok (Some tt) end).

(** ** Elasticity *)

Record lsolver := LSolver { le_types : list btype; le_bdr : list (option coeff); le_rhs : list coeff; le_mat : option (sfun * sfun); le_ic : option vfun }.
(** src/linelast_solver.cpp:71-76, 79-132 *)
Definition linelast_new (gattr : list Z) : lsolver := LSolver (repeat BNone (List.length gattr)) (repeat None (List.length gattr)) [] None None.
(** src/linelast_solver.cpp:464-474 *)
Definition linelast_case (p : problem) (b : nat) : outcome (option coeff) :=
  let* t := oread (pb_types p) b in
  let* f := oread (pb_vbdr p) b in
  match t, f with
  | BDirichlet, None => Abort
  | _, None => Ok None
  | _, Some f => Ok (Some (CVector f))
  end.
(** src/linelast_solver.cpp:443-486 [SetParameterizedProblem] *)
Definition linelast_set (gattr : list Z) (p : problem) (s : lsolver) : outcome lsolver :=
  let* types := set_problem gattr (pb_battr p) (pb_types p) (le_types s) in
  let* la := oread (pb_gs p) 0 in
  let* mu := oread (pb_gs p) 1 in
  let* bdr := ofor (List.length (pb_battr p)) (fun bdr b =>
    let* c := linelast_case p b in
    let* a := oread (pb_battr p) b in
    match c with None => Ok bdr | Some c => add_bc gattr bdr c a end) (le_bdr s) in
  let rhs := match pb_vrhs p with Some f => le_rhs s ++ [CVector f] | None => le_rhs s end in
  let* ic := oread (pb_gv p) 0 in
  Ok (LSolver types bdr rhs (Some (la, mu)) (match ic with Some f => Some f | None => le_ic s end)).

(** Dirichlet penalty or traction *)
Inductive lterm := LDirichlet (c : coeff) | LTraction (c : coeff).
(** src/linelast_solver.cpp:164-196 [SetupRHSBCOperators] *)
Definition linelast_rhs (ms : list (list Z)) (gattr : list Z) (s : lsolver) : outcome (list (nat * nat * lterm)) :=
  bc_loop ms gattr (fun b =>
    let* c := bc_at gattr (le_bdr s) b in
    match c with
    | None => Ok None
    | Some c => let* t := oread (le_types s) b in
        match t with BDirichlet => Ok (Some (LDirichlet c)) | BNeumann => Ok (Some (LTraction c)) | _ => Ok None end
    end).
(** src/linelast_solver.cpp:420-441 [SetupDomainBCOperators] *)
Definition linelast_domain (full_dg : bool) (ms : list (list Z)) (gattr : list Z) (s : lsolver) : outcome (list (nat * nat * unit)) :=
  if full_dg then
    bc_loop ms gattr (fun b =>
      let* c := bc_at gattr (le_bdr s) b in
      match c with
      | None => Ok None
      | Some _ => let* t := oread (le_types s) b in match t with BDirichlet => Ok (Some tt) | _ => Ok None end
      end)
  else Ok [].

(** ** Flow *)

Record qpoint := QPoint { qp_x : vec; qp_w : R; qp_n : vec }.
Record belem := BElem { be_attr : Z; be_q : list qpoint }.

Record ssolver := SSolver { so_types : list btype; so_ud : list (option coeff); so_rhs : list coeff; so_pres : bool;
  so_nu : R; so_del : option R; so_x0 : option vec }.
(** src/stokes_solver.cpp:90-98, 219; hpp:130; [x0] and [del_u] are what the program holds so far *)
Definition stokes_new (gattr : list Z) (del : option R) (x0 : option vec) : ssolver :=
  SSolver (repeat BNone (List.length gattr)) (repeat None (List.length gattr)) [] false 0 del x0.

Definition missing (c : option coeff) : bool := match c with None => true | Some _ => false end.
(** src/stokes_solver.cpp:222-230 [DeterminePressureDirichlet] *)
Definition pressure_fixed (gattr : list Z) (ud : list (option coeff)) : outcome bool :=
  ofor (List.length gattr) (fun r b => let* c := oread ud b in Ok (r || missing c)) false.
(** src/stokes_solver.cpp:100-142 [AddBCFunction] *)
Definition stokes_add (gattr : list Z) (s : list (option coeff) * bool) (c : coeff) (a : Z) : outcome (list (option coeff) * bool) :=
  let (ud, pres) := s in
  let* ud' := add_bc gattr ud c a in
  match (if (0 <? a)%Z then attr_find gattr a 0 else Some 0%nat) with
  | None => Ok (ud', pres)
  | Some _ => let* pres := pressure_fixed gattr ud' in Ok (ud', pres)
  end.

(** src/stokes_solver.cpp:1108-1121 *)
Definition stokes_case (p : problem) (b : nat) : outcome (option coeff) :=
  let* t := oread (pb_types p) b in
  match t with
  | BDirichlet => let* f := oread (pb_vbdr p) b in match f with Some f => Ok (Some (CVector f)) | None => Abort end
  | BNeumann => Ok None
  | _ => Ok (Some CZero)
  end.

(** Value of a velocity coefficient; the functions of the flow problems overwrite the vector they are given. *)
Definition ceval (c : coeff) (g : gvars) (del : option R) (x0 : option vec) (x : vec) : outcome (option vec) :=
  let dim := List.length x in
  match c with
  | CZero => Ok (Some (repeat 0 dim))
  | CScalar _ => UB
  | CVector VComponent =>
      match del, x0 with
      | Some d, Some z => let* v := veval VComponent g d z x 0 (repeat 0 dim) in Ok (Some v)
      | _, _ => Ok None
      end
  | CVector f => let* v := veval f g 0 [] x 0 (repeat 0 dim) in Ok (Some v)
  end.

Definition oplus (a b : option R) : option R := match a, b with Some a, Some b => Some (a + b) | _, _ => None end.
(** src/stokes_solver.cpp:1365-1399 [ComputeBEFlux] *)
Definition be_flux (c : coeff) (g : gvars) (del : option R) (x0 : option vec) (e : belem) : outcome (option R) :=
  ofold (fun acc q => let* v := ceval c g del x0 (qp_x q) in
    Ok (oplus acc (match v with Some v => Some (dot (List.length (qp_x q)) v (qp_n q)) | None => None end))) (be_q e) (Some 0).
(** [ComputeBEFlux] of [dir], src/parameterized_problem.cpp:97-105 *)
Definition be_dirflux (x0 : option vec) (e : belem) : outcome (option R) :=
  ofold (fun acc q => match x0 with
    | None => Ok None
    | Some z => oassert (List.length z =? List.length (qp_x q))%nat (
        let dim := List.length (qp_x q) in
        Ok (oplus acc (Some (dot dim (map (fun i => vnth (qp_x q) i - vnth z i) (seq 0 dim)) (qp_n q)))))
    end) (be_q e) (Some 0).
(** src/stokes_solver.cpp:1401-1422, 1424-1448 [ComputeBEIntegral] of one and of [dir] with [x0 = 0] *)
Definition be_area (e : belem) : R := fold_left (fun s q => s + 1 * qp_w q) (be_q e) 0.
Definition be_moment (dim : nat) (e : belem) : vec :=
  fold_left (fun s q => map (fun i => vnth s i + vnth (qp_x q) i * qp_w q) (seq 0 dim)) (be_q e) (repeat 0 dim).

(** The loop over boundary elements of 1212-1231, 1240-1260, 1268-1287 *)
Definition bdr_sum {A} (full_dg : bool) (gattr : list Z) (nz : list bool) (meshes : list (list belem)) (f : A -> nat -> belem -> outcome A) (a : A) : outcome A :=
  ofold (fun a es => ofold (fun a e =>
    match attr_find gattr (be_attr e) 0 with
    | None => Ok a
    | Some i => let* z := oread nz i in if z then oassert (negb full_dg) (f a i e) else Ok a
    end) es a) meshes a.

(** 1282: 1e-12 *)
Definition threshold : R := / 10 ^ 12.
(** src/stokes_solver.cpp:1181-1288 [SetComplementaryFlux] *)
Definition complementary_flux (full_dg : bool) (dim : nat) (gattr : list Z) (meshes : list (list belem)) (g : gvars)
    (ud : list (option coeff)) (nz : list bool) : outcome (option R * option vec) :=
  oassert (List.length nz =? List.length gattr)%nat (oassert (List.length ud =? List.length gattr)%nat (
  oassert (forallb (fun c => negb (missing c)) ud) (
  let* (area, x1) := bdr_sum full_dg gattr nz meshes (fun a _ e =>
      Ok (fst a + be_area e, map (fun i => vnth (snd a) i + vnth (be_moment dim e) i) (seq 0 dim))) (0, repeat 0 dim) in
  let x0 := if Req_EM_T area 0 then None else Some (map (fun v => v / area) x1) in
  let flux del i e := let* c := oread ud i in match c with Some c => be_flux c g del x0 e | None => UB end in
  let* (bflux, dirflux) := bdr_sum full_dg gattr nz meshes (fun a i e =>
      let* b := flux (Some 0) i e in let* d := be_dirflux x0 e in Ok (oplus (fst a) b, oplus (snd a) d)) (Some 0, Some 0) in
  let del := match bflux, dirflux with Some b, Some d => if Req_EM_T d 0 then None else Some (b / d) | _, _ => None end in
  let* b := bdr_sum full_dg gattr nz meshes (fun a i e => let* b := flux del i e in Ok (oplus a b)) (Some 0) in
  match b with
  | Some b => if Rlt_dec threshold (Rabs b) then Abort else Ok (del, x0)
  | None => Ok (del, x0)
  end))).

(** src/stokes_solver.cpp:1132-1143: boundaries taking part in the correction *)
Definition nonzero_bdr (gattr : list Z) (p : problem) : outcome (list bool) :=
  let* (nz, _) := ofor (List.length (pb_battr p)) (fun (s : list bool * bool) b =>
    let (nz, stop) := s in
    if stop then Ok (nz, stop)
    else
      let* t := oread (pb_types p) b in
      match t with
      | BZero => let* a := oread (pb_battr p) b in
          if (a =? -1)%Z then Ok (map (fun _ => false) nz, true) else let* nz := owrite nz b false in Ok (nz, false)
      | _ => Ok (nz, false)
      end) (repeat true (List.length gattr), false) in
  Ok nz.

(** [x0.SetSize(dim)]: new memory, holding [junk], when the size changes *)
Definition resize (dim : nat) (x0 junk : option vec) : option vec :=
  match x0 with Some v => if (List.length v =? dim)%nat then Some v else junk | None => None end.

(** src/stokes_solver.cpp:1082-1146 [SetParameterizedProblem] *)
Definition stokes_set (full_dg : bool) (dim : nat) (gattr : list Z) (meshes : list (list belem)) (junk : option vec) (g : gvars) (p : problem)
    (s : ssolver) : outcome ssolver :=
  let* types := set_problem gattr (pb_battr p) (pb_types p) (so_types s) in
  let nu := g "flow_problem::nu" in
  let ud := map (fun _ => None) (so_ud s) in
  let* (ud, pres) := ofor (List.length (pb_battr p)) (fun s b =>
    let* c := stokes_case p b in
    let* a := oread (pb_battr p) b in
    match c with None => Ok s | Some c => stokes_add gattr s c a end) (ud, so_pres s) in
  let rhs := [match pb_vrhs p with Some f => CVector f | None => CZero end] in
  let x0 := resize dim (so_x0 s) junk in
  if (pres : bool) then Ok (SSolver types ud rhs pres nu (Some 0) x0)
  else
    let* nz := nonzero_bdr gattr p in
    let* (del, x0) := complementary_flux full_dg dim gattr meshes g ud nz in
    Ok (SSolver types ud rhs pres nu del x0).
