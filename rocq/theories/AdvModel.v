(** Model of the advection-diffusion solver (src/advdiff_solver.cpp): where its velocity comes from, what it assembles, what
    it draws.

    Simplifications: the Stokes solver is its solution and whether its iterations converged ([flows]); its variables are
    velocity and pressure. Coefficients and Stokes solvers are kept in lists of cells, a deleted one being [None]. What
    MFEM's [DiffusionIntegrator] and [ConvectionIntegrator] yield on an element is written out with quadrature points, the
    shape functions being numbered by the degrees of freedom of the subdomain; the other integrators are those of BupModel.
    Warnings and timers are left out. *)
From Coq Require Import Reals List Bool Lia Arith ZArith String.
From Verif Require Import Outcome LaBase LinalgModel BlockVec RomModel MbModel ItfModel ProbModel BcModel BupModel.
Import ListNotations.
Local Open Scope nat_scope.

(** ** The solver *)

(** src/advdiff_solver.cpp:13-28: options *)
Record acfg := ACfg { ac_full_dg : bool; ac_pe : R; ac_save : bool; ac_load : bool; ac_file : option string; ac_can : string -> bool; ac_nsub : nat; ac_gattr : list Z }.

(** src/advdiff_solver.cpp:166-169, 270: [VectorFunctionCoefficient], [VectorGridFunctionCoefficient] on grid function [k] of
    a Stokes solver *)
Inductive fcoeff := FFun (f : vec -> vec) | FGrid (s k : nat).

(** include/advdiff_solver.hpp:20-39: every coefficient and Stokes solver ever made; [flow_coeffs], [stokes_solver], the
    coefficient each form of [as] refers to; the files; the Poisson solver it derives from *)
Record astate := AState { a_coefs : list (option fcoeff); a_flow : list (option nat); a_solvers : list (option bvec); a_cur : option nat;
                          a_forms : option (list nat); a_files : files; a_ps : psolver }.

(** src/advdiff_solver.cpp:13-28: [ConvectionIntegrator] needs a continuous space; the name of the flow file is required when
    the flow is saved or loaded *)
Definition adv_new (c : acfg) (fs : files) : outcome astate :=
  oassert (negb (ac_full_dg c)) (
  oassert (negb (ac_save c || ac_load c) || match ac_file c with Some _ => true | None => false end) (
  Ok (AState [] (repeat None (ac_nsub c)) [] None None fs (poisson_new (ac_gattr c))))).

(** [delete] of a pointer of [flow_coeffs]: twice is undefined *)
Definition del {A} (cells : list (option A)) (p : option nat) : outcome (list (option A)) :=
  match p with
  | None => Ok cells
  | Some i => let* c := oread cells i in match c with None => UB | Some _ => owrite cells i None end
  end.
(** include/etc.hpp:17-19 [DeletePointers] *)
Definition del_all {A} (cells : list (option A)) (ps : list (option nat)) : outcome (list (option A)) := ofold del ps cells.

(** src/advdiff_solver.cpp:158-170 [SetFlowAtSubdomain]: the coefficients replaced are not deleted *)
Definition set_flow (c : acfg) (f : vec -> vec) (m : Z) (s : astate) : outcome astate :=
  oassert (List.length (a_flow s) =? ac_nsub c) (
  oassert ((m =? -1) || ((0 <=? m) && (m <? Z.of_nat (ac_nsub c))))%Z (
  let put s k :=
    let* fl := owrite (a_flow s) k (Some (List.length (a_coefs s))) in
    Ok (AState (a_coefs s ++ [Some (FFun f)]) fl (a_solvers s) (a_cur s) (a_forms s) (a_files s) (a_ps s)) in
  if (m =? -1)%Z then ofor (ac_nsub c) put s else put s (Z.to_nat m))).

(** The Stokes solver: layout of its solution, and its solution of a problem for given variables, with whether it converged *)
Record flows := Flows { fl_off : list nat; fl_solve : problem -> gvars -> outcome (vec * bool) }.

(** src/stokes_solver.cpp: [GetNumVar]: velocity and pressure *)
Definition flow_nvar : nat := 2.

(** src/etc.cpp:26-31 [FileExists] *)
Definition file_exists (fs : files) (n : string) : bool := match fs n with Some _ => true | None => false end.

(** src/advdiff_solver.cpp:238-277 [GetFlowField]: the flow in the file if there is one and it is to be loaded; otherwise it is
    computed, converged or not. The Stokes solver of an earlier call is not deleted. *)
Definition get_flow (c : acfg) (L : flows) (g : gvars) (fp : option problem) (s : astate) : outcome astate :=
  match fp with
  | None => Abort
  | Some p =>
      let n := List.length (a_solvers s) in
      let name := match ac_file c with Some f => f | None => ""%string end in
      let* (u, loaded) :=
        (if ac_load c && file_exists (a_files s) name
         then let* d := load_solution (a_files s) name (repeat 0%R (last (fl_off L) 0)) in Ok (d, true)
         else let* (d, _) := fl_solve L p g in Ok (d, false)) in
      let* fs := (if ac_save c && negb loaded then save_solution (SolCfg (ac_save c) "" "" (ac_can c)) (a_files s) name u else Ok (a_files s)) in
      let* cells := del_all (a_coefs s) (a_flow s) in
      let* (cells, fl) := ofor (ac_nsub c) (fun cf m =>
        oguard (m * flow_nvar <? List.length (fl_off L) - 1) (
        let* fl := owrite (snd cf) m (Some (List.length (fst cf))) in
        Ok (fst cf ++ [Some (FGrid n (m * flow_nvar))], fl))) (cells, a_flow s) in
      Ok (AState cells fl (a_solvers s ++ [Some (BVec (fl_off L) u)]) (Some n) (a_forms s) fs (a_ps s))
  end.

(** src/advdiff_solver.cpp:172-178 [SetParameterizedProblem] of [p]; [analytic] and [fp] are [analytic_flow] and [flow_problem] *)
Definition adv_set (c : acfg) (L : flows) (g : gvars) (analytic : bool) (fp : option problem) (p : problem) (s : astate) : outcome astate :=
  let* s := (if analytic then Ok s else get_flow c L g fp s) in
  let* ps := poisson_set (ac_gattr c) p (a_ps s) in
  Ok (AState (a_coefs s) (a_flow s) (a_solvers s) (a_cur s) (a_forms s) (a_files s) ps).

(** src/advdiff_solver.cpp:39-48 [BuildDomainOperators]: new forms, each referring to the coefficient of its subdomain *)
Definition adv_build (c : acfg) (s : astate) : outcome astate :=
  let* fs := omap (fun m => let* p := oread (a_flow s) m in match p with None => Abort | Some i => Ok i end) (seq 0 (ac_nsub c)) in
  Ok (AState (a_coefs s) (a_flow s) (a_solvers s) (a_cur s) (Some fs) (a_files s) (a_ps s)).

(** ** Assembly *)

(** A quadrature point of an element: weight, place, values and gradients of the shape functions of the subdomain, and of
    those of the velocity (by component) *)
Record qpt := Qpt { q_w : R; q_x : vec; q_shape : nat -> R; q_grad : nat -> nat -> R; q_vel : nat -> nat -> R }.

(** [VectorCoefficient::Eval] at a quadrature point, component [d] *)
Definition vel_at (b : velocity) (q : qpt) (d : nat) : R :=
  match b with VelFun f => nth d (f (q_x q)) 0%R | VelGrid u => rsum (List.length u) (fun j => nth j u 0 * q_vel q d j)%R end.

(** [mfem::DiffusionIntegrator], [mfem::ConvectionIntegrator] (alpha (b . grad u, v)), on the points of elements of subdomains *)
Definition adv_numerics (dim : nat) (pts : nat -> nat -> list qpt) (nu : numerics) : numerics :=
  Numerics (fun I at_ e i j =>
    match I, at_ with
    | IDiffusion, AtSub m => EqpSpec.lsum (fun q => q_w q * rsum dim (fun d => q_grad q i d * q_grad q j d))%R (pts m e)
    | IConvection b pe, AtSub m => EqpSpec.lsum (fun q => pe * q_w q * q_shape q i * rsum dim (fun d => vel_at b q d * q_grad q j d))%R (pts m e)
    | _, _ => nu_dom nu I at_ e i j
    end) (nu_int nu) (nu_bdr nu) (nu_itf nu).

(** The velocity a form refers to: a deleted coefficient or Stokes solver is undefined *)
Definition form_velocity (s : astate) (i : nat) : outcome velocity :=
  let* c := oread (a_coefs s) i in
  match c with
  | None => UB
  | Some (FFun f) => Ok (VelFun f)
  | Some (FGrid n k) => let* v := oread (a_solvers s) n in
                        match v with None => UB | Some u => let* x := bv_get u k in Ok (VelGrid x) end
  end.

(** src/poisson_solver.cpp:185-192, src/advdiff_solver.cpp:43-47: the integrators of a subdomain *)
Definition adv_terms (sigma kappa pe : R) (bs : list velocity) (m : nat) : outcome terms :=
  let* b := oread bs m in Ok ([IDiffusion; IConvection b pe], [], IDGDiffusion sigma kappa).

(** src/poisson_solver.cpp:281-337 [AssembleOperator] with the forms of the last [adv_build] *)
Definition adv_full (c : acfg) (nu : numerics) (g : geometry) (cfes : list fespace) (sigma kappa : R) (s : astate) : outcome blockmat :=
  match a_forms s with
  | None => UB
  | Some fs =>
      let* bs := omap (form_velocity s) fs in
      let* fes := sub_fes g cfes in
      let* (meshes, marks, bcs) := sub_setup g (fun ms => weak_domain ms (g_gattr g) (po_types (a_ps s)) (po_bdr (a_ps s))) in
      let* A := sub_matrices nu meshes fes fes (adv_terms sigma kappa (ac_pe c) bs) marks bcs in
      itf_matrices fes [nu_itf nu (IItfDiffusion sigma kappa)] (g_ports g) A
  end.

(** src/advdiff_solver.cpp:30-37: what is deleted in the end *)
Definition adv_destroy (s : astate) : outcome (list (option fcoeff) * list (option bvec)) :=
  let* cells := del_all (a_coefs s) (a_flow s) in
  let* sol := del (a_solvers s) (a_cur s) in
  Ok (cells, sol).

(** ** Solving *)

(** src/advdiff_solver.cpp:77-156, src/poisson_solver.cpp:430-504, src/linelast_solver.cpp:306-387 [Solve]: [mult] is what the
    direct solver yields, taken to have converged; [run x] what the iterations started from [x] yield, with whether they
    converged. Also the snapshots saved. *)
Definition linear_solve (direct amg : bool) (mumps mono : bool) (mult : vec) (run : vec -> vec * bool) (generator : bool) (u : vec) : outcome (vec * bool * list vec) :=
  let* (u, conv) :=
    (if direct then oassert mumps (Ok (mult, true))
     else let* _ := (if amg then oassert mono (Ok tt) else Ok tt) in Ok (run (repeat 0%R (List.length u)))) in
  Ok (u, conv, if conv && generator then [u] else []).

(** ** Visualization *)

(** src/advdiff_solver.cpp:180-228 [SaveVisualization]: the flow of the field "flow" of each collection, and the collections
    saved; [colls] tells which collections exist, [global] whether there is a global mesh. Projection and transfer to the global
    mesh are left out: the unified view has the flows of all subdomains. *)
Definition adv_visual (c : acfg) (v : visual) (colls : list bool) (global : bool) (s : astate) : outcome (list (nat * list velocity) * list nat) :=
  if negb (vi_save v) then Ok ([], [])
  else
    oassert (0 <? List.length colls) (
    oassert (forallb (fun b => b) colls) (
    let* fl := omap (fun m =>
      match a_cur s with
      | Some n => let* w := oread (a_solvers s) n in
                  match w with None => UB | Some u => let* x := bv_get u (m * flow_nvar) in Ok (VelGrid x) end
      | None => let* p := oread (a_flow s) m in match p with None => Abort | Some i => form_velocity s i end
      end) (seq 0 (ac_nsub c)) in
    let* fields := (if vi_unified v then oassert global (Ok [(0, fl)])
                    else omap (fun m => oguard (m <? List.length colls) (let* x := oread fl m in Ok (m, [x]))) (seq 0 (ac_nsub c))) in
    let* saved := vis_save (ac_nsub c) v colls in
    Ok (fields, saved))).
