(** Model of the drivers of the training, building and running modes (src/main_workflow.cpp) together with the refusals
    of the solver classes they call.  Vectors, operators, bases and elements are abstract; what is modelled is which
    stage reads and writes which file, which calls stop the program, and what a run reports.  Definitions only. *)
From Coq Require Import List Bool String Reals.
From Verif Require Import Outcome.
Import ListNotations.
Open Scope string_scope.
Open Scope list_scope.

(** The values of "main/solver" (src/main_workflow.cpp:52-69). *)
Inductive physics := Poisson | Stokes | SteadyNS | UnsteadyNS | LinElast | AdvDiff.
(** include/topology_handler.hpp [TopologyHandlerMode]. *)
Inductive topology := SubMesh | Component.
(** include/rom_handler.hpp [ROMBuildingLevel]. *)
Inductive level := LNone | LGlobal | LComponent.
(** include/rom_handler.hpp [NonlinearHandling]; [HNone] is the value left when nothing is given. *)
Inductive handling := HTensor | HEqp | HNone.
(** include/steady_ns_solver.hpp [OperType]. *)
Inductive operator_type := OBase | OLF.

(** The options read by the drivers and by the constructors of the solvers and of the ROM handler. *)
Record config := mkconfig {
  c_phys : physics;
  c_topo : topology;
  c_oper : operator_type;          (* "navier-stokes/operator-type" *)
  c_bdf : nat;                     (* "time-integration/bdf_order" *)
  c_rom : bool;                    (* "main/use_rom" *)
  c_sep : bool;                    (* "model_reduction/separate_variable_basis" *)
  c_level : level;                 (* "model_reduction/save_operator/level" *)
  c_prefix : option string;        (* "model_reduction/save_operator/prefix" *)
  c_nl : handling;                 (* "model_reduction/nonlinear_handling" *)
  c_by_variable : bool;            (* "model_reduction/ordering" is "variable" *)
  c_basis : string;                (* "basis/prefix" *)
  c_restart : option string;       (* "solver/use_restart" with "solver/restart_file" *)
  c_save_system : option string;   (* "model_reduction/save_linear_system" with its prefix *)
  c_compare : bool;                (* "model_reduction/compare_solution/enabled" *)
  c_fom_file : option string;      (* "compare_solution/load_solution" with "fom_solution_file" *)
  c_save_reduced : bool;           (* "compare_solution/save_reduced_solution" *)
  c_save_solution : option string  (* "save_solution/enabled" with the file name made from its path and prefix *)
}.

(** [MultiBlockSolver::IsNonlinear] (include/multiblock_solver.hpp:134; set in src/steady_ns_solver.cpp:422 and
    src/unsteady_ns_solver.cpp:18). *)
Definition nonlinear (f : physics) : bool := match f with SteadyNS | UnsteadyNS => true | _ => false end.
(** The classes derived from [StokesSolver]. *)
Definition flow (f : physics) : bool := match f with Stokes | SteadyNS | UnsteadyNS => true | _ => false end.
(** [GetNumVar]: the flow solvers have velocity and pressure. *)
Definition num_var (f : physics) : nat := if flow f then 2 else 1.

Definition is_rom_level (l l' : level) : bool :=
  match l, l' with LNone, LNone | LGlobal, LGlobal | LComponent, LComponent => true | _, _ => false end.
Definition by_component (c : config) : bool := match c_topo c with Component => true | SubMesh => false end.
Definition lax_friedrichs (c : config) : bool := match c_oper c with OLF => true | OBase => false end.
Definition tensorial (c : config) : bool := match c_nl c with HTensor => true | _ => false end.
Definition hyper_reduced (c : config) : bool := match c_nl c with HEqp => true | _ => false end.
Definition handled (c : config) : bool := match c_nl c with HNone => false | _ => true end.

(** [GetOperatorPrefix]: read only when operators are saved (src/rom_handler.cpp:77-90). *)
Definition prefix (c : config) : string := match c_prefix c with Some p => p | None => "" end.
(** src/main_workflow.cpp:457, 472, 546. *)
Definition operator_file (c : config) : string := prefix c ++ ".h5".
(** src/steady_ns_solver.cpp:583, 613, 836, 853. *)
Definition tensor_file (c : config) : string := prefix c ++ ".tensor.h5".
(** src/steady_ns_solver.cpp:839, 856. *)
Definition eqp_file (c : config) : string := prefix c ++ ".eqp.h5".
(** src/rom_handler.cpp:242-260: one file per tag.  Simplified: they are written together and read together, so they are
    one entry here, under the common prefix. *)
Definition basis_file (c : config) : string := c_basis c ++ "_".
(** src/stokes_solver.cpp:977, 1347: the files of the supremizers, again as one entry. *)
Definition sup_file (c : config) : string := c_basis c ++ "_sup.h5".

(** Construction of the solver (src/unsteady_ns_solver.cpp:15-37).  Simplified: the options that stop it in any mode
    (unknown solver or operator names, missing time step) are outside [config]. *)
Definition new_solver (c : config) : outcome unit :=
  match c_phys c with
  | UnsteadyNS =>
      oassert (lax_friedrichs c)
        (oassert (Nat.eqb (c_bdf c) 1) (oassert (negb (c_rom c) || c_sep c) (Ok tt)))
  | _ => Ok tt
  end.

(** [InitROMHandler]: src/multiblock_solver.cpp:608-617 with src/rom_handler.cpp:77-90 (the prefix is a required option
    unless nothing is saved); for the nonlinear solvers src/steady_ns_solver.cpp:794-811 (a handling is needed,
    include/rom_handler.hpp:140-142; with the Lax-Friedrichs flux the component spaces are read, which exist only for
    component topologies) and src/unsteady_ns_solver.cpp:403-409. *)
Definition init_handler (c : config) : outcome unit :=
  oassert (match c_level c, c_prefix c with LNone, _ => true | _, Some _ => true | _, None => false end)
    (if nonlinear (c_phys c)
     then oassert (handled c)
            (oguard (negb (lax_friedrichs c) || by_component c)
               (match c_phys c with UnsteadyNS => oassert (c_by_variable c) (Ok tt) | _ => Ok tt end))
     else Ok tt).

(** [AllocateROMNlinElems] (src/steady_ns_solver.cpp:813-829, 879-884, 999-1092): the hyper-reduced forms use the
    component spaces. *)
Definition allocate_nonlinear (c : config) : outcome unit :=
  match c_nl c with HTensor => Ok tt | HEqp => oguard (by_component c) (Ok tt) | HNone => Abort end.

(** Integrators attached to the forms: the parameters they were built with and how often boundary terms were added.
    [BuildOperators], [BuildRHSOperators], [BuildDomainOperators] make new forms (src/poisson_solver.cpp:157-203,
    src/stokes_solver.cpp:232-298, src/linelast_solver.cpp:138-217); [Setup...BCOperators] add to the present ones
    (src/poisson_solver.cpp:205-254, src/stokes_solver.cpp:304-368, src/linelast_solver.cpp:164-196, 414-442). *)
Record forms (P : Type) := mkforms { f_par : P; f_bdr : nat }.
Arguments mkforms {P}. Arguments f_par {P}. Arguments f_bdr {P}.
Definition build_forms {P} (p : P) (old : option (forms P)) : option (forms P) := Some (mkforms p 0).
Definition setup_bc {P} (f : option (forms P)) : outcome (option (forms P)) :=
  match f with Some f => Ok (Some (mkforms (f_par f) (S (f_bdr f)))) | None => Abort end.
Definition the_forms {P} (f : option (forms P)) : outcome (forms P) :=
  match f with Some f => Ok f | None => Abort end.

Section Drivers.
  (** Parameters of the problem; full-order vectors and operators; snapshots; bases and supremizers; component
      elements; component tensors and rules; reduced matrices, convection operators and vectors. *)
  Context {Par Vec Oper Samp Bas Sup Lin Ten Eqp RMat NlT NlE Red : Type}.

  (** The numerical work of the stages. *)
  Record numerics := mknum {
    rhs_of : forms Par -> Vec;                    (* AssembleRHS *)
    op_of : forms Par -> Oper;                    (* AssembleOperator *)
    basis_of : Samp -> Bas;                       (* FormReducedBasis *)
    sup_of : Bas -> Sup;                          (* EnrichSupremizer *)
    enrich : Bas -> Sup -> Bas;                   (* LoadSupremizer *)
    lin_of : Par -> Bas -> Lin;                   (* BuildROMLinElems *)
    mat_of_lin : Par -> Bas -> Lin -> RMat;       (* AssembleROMMat *)
    mat_of_op : Bas -> Oper -> RMat;              (* ProjectOperatorOnReducedBasis *)
    ten_of : Bas -> Ten;                          (* BuildROMTensorElems *)
    ten_sub : Ten -> NlT;                         (* AssembleROMTensorOper *)
    ten_glob : Bas -> NlT;                        (* the tensors of SteadyNSSolver::ProjectOperatorOnReducedBasis *)
    eqp_of : Bas -> Samp -> Eqp;                  (* TrainROMEQPElems *)
    eqp_sub : Par -> Bas -> Eqp -> NlE;           (* AssembleROMEQPOper *)
    proj : Bas -> Vec -> Red;
    lift : Bas -> Red -> Vec;
    zero_guess : Red;
    random_guess : Red;
    solve_lin : RMat -> Red -> Red -> Red;        (* MFEMROMHandler::Solve: right-hand side, guess *)
    solve_ten : RMat -> NlT -> Red -> Red -> Red; (* NonlinearSolve *)
    solve_eqp : RMat -> NlE -> Red -> Red -> Red;
    march : Par -> Bas -> RMat -> NlE -> Red -> option Vec -> Red; (* UnsteadyNSSolver::SolveROM *)
    full_solve : physics -> Par -> Oper -> Vec -> option Vec -> Vec; (* Solve, with the restart state if any *)
    rel_error : Vec -> Vec -> list R              (* CompareSolution: full-order solution, reduced solution *)
  }.

  (** Contents of a file. *)
  Inductive file :=
  | FBasis (b : Bas) | FSup (s : Sup) | FLin (l : Lin) | FMat (m : RMat) | FTen (t : Ten) | FTenSub (t : NlT)
  | FEqp (e : Eqp) | FSol (u : Vec) | FRed (r : Red) | FReport (times : list R) (error : list R).

  Definition disk := string -> option file.
  Definition write (d : disk) (name : string) (f : file) : disk :=
    fun x => if String.eqb x name then Some f else d x.

  (** Opening a file that is missing or has other datasets stops the program (asserts on the HDF5 handles). *)
  Definition read_basis (d : disk) x := match d x with Some (FBasis b) => Ok b | _ => Abort end.
  Definition read_sup (d : disk) x := match d x with Some (FSup b) => Ok b | _ => Abort end.
  Definition read_lin (d : disk) x := match d x with Some (FLin b) => Ok b | _ => Abort end.
  Definition read_mat (d : disk) x := match d x with Some (FMat b) => Ok b | _ => Abort end.
  Definition read_ten (d : disk) x := match d x with Some (FTen b) => Ok b | _ => Abort end.
  Definition read_ten_sub (d : disk) x := match d x with Some (FTenSub b) => Ok b | _ => Abort end.
  Definition read_eqp (d : disk) x := match d x with Some (FEqp b) => Ok b | _ => Abort end.
  Definition read_sol (d : disk) x := match d x with Some (FSol b) => Ok b | _ => Abort end.

  Context (num : numerics).

  (** [LoadReducedBasis]: src/rom_handler.cpp:238-274 and, for the flow solvers, src/stokes_solver.cpp:942-949. *)
  Definition load_basis (c : config) (d : disk) : outcome Bas :=
    let* b := read_basis d (basis_file c) in
    if flow (c_phys c) && c_sep c
    then let* s := read_sup d (sup_file c) in Ok (enrich num b s)
    else Ok b.

  (** src/main_workflow.cpp:286-313 [AuxiliaryTrainROM]. *)
  Definition aux_train (c : config) (d : disk) : outcome disk :=
    if c_sep c && flow (c_phys c)
    then let* _ := new_solver c in
         oassert (c_rom c)
           (let* _ := init_handler c in
            let* b := read_basis d (basis_file c) in
            Ok (write d (sup_file c) (FSup (sup_of num b))))
    else Ok d.

  (** src/main_workflow.cpp:272-284 [TrainROM]; the collected samples are given. *)
  Definition train_rom (c : config) (x : Samp) (d : disk) : outcome disk :=
    aux_train c (write d (basis_file c) (FBasis (basis_of num x))).

  (** src/main_workflow.cpp:315-381 [TrainEQP]; the collected samples are given. *)
  Definition train_eqp (c : config) (x : Samp) (d : disk) : outcome disk :=
    oassert (hyper_reduced c)
      (let* _ := new_solver c in
       let* _ := init_handler c in
       if negb (nonlinear (c_phys c)) then Ok d
       else
         oassert (c_rom c)
           (let* b := load_basis c d in
            let* _ := allocate_nonlinear c in
            match c_level c with
            | LComponent => oassert (by_component c) (Ok (write d (eqp_file c) (FEqp (eqp_of num b x))))
            | LGlobal => Abort
            | LNone => Abort
            end)).

  (** [BuildROMLinElems] (src/multiblock_solver.cpp:259-264); the component part of the advection-diffusion solver is
      not implemented (src/advdiff_solver.cpp, [BuildCompROMLinElems]). *)
  Definition build_lin (c : config) (p : Par) (b : Bas) : outcome Lin :=
    match c_phys c with AdvDiff => Abort | _ => Ok (lin_of num p b) end.

  (** [BuildROMTensorElems]: src/steady_ns_solver.cpp:886-906 with 1380-1388 (refused for the Lax-Friedrichs flux);
      include/unsteady_ns_solver.hpp:109-110; include/multiblock_solver.hpp:233-234. *)
  Definition build_tensor (c : config) (b : Bas) : outcome Ten :=
    match c_phys c with
    | SteadyNS => oassert (by_component c) (oassert (negb (lax_friedrichs c)) (Ok (ten_of num b)))
    | _ => Abort
    end.

  (** [ProjectOperatorOnReducedBasis]: src/steady_ns_solver.cpp:738-755 (the subdomain tensors as well), with the
      refusal of 1387-1388; include/unsteady_ns_solver.hpp:100-101. *)
  Definition project_operator (c : config) (b : Bas) (o : Oper) : outcome (RMat * option NlT) :=
    match c_phys c with
    | UnsteadyNS => Abort
    | SteadyNS =>
        if tensorial c
        then oassert (negb (lax_friedrichs c)) (Ok (mat_of_op num b o, Some (ten_glob num b)))
        else Ok (mat_of_op num b o, None)
    | _ => Ok (mat_of_op num b o, None)
    end.

  (** [SaveROMOperator]: src/rom_handler.cpp:434-448, src/steady_ns_solver.cpp:576-602, include/unsteady_ns_solver.hpp:86-87. *)
  Definition save_operator (c : config) (m : RMat) (t : option NlT) (d : disk) : outcome disk :=
    let d1 := write d (operator_file c) (FMat m) in
    match c_phys c with
    | UnsteadyNS => Abort
    | SteadyNS =>
        if tensorial c
        then match t with Some t => Ok (write d1 (tensor_file c) (FTenSub t)) | None => UB end
        else Ok d1
    | _ => Ok d1
    end.

  (** src/main_workflow.cpp:417-483 [BuildROM], without the visualization of the basis. *)
  Definition build_rom (c : config) (p : Par) (d : disk) : outcome disk :=
    let* _ := new_solver c in
    oassert (c_rom c)
      (let* _ := init_handler c in
       let* f := setup_bc (build_forms p None) in
       let* b := load_basis c d in
       let* _ := (if nonlinear (c_phys c) then allocate_nonlinear c else Ok tt) in
       match c_level c with
       | LComponent =>
           oassert (by_component c)
             (let* l := build_lin c p b in
              let d1 := write d (operator_file c) (FLin l) in
              if nonlinear (c_phys c) && tensorial c
              then let* t := build_tensor c b in Ok (write d1 (tensor_file c) (FTen t))
              else Ok d1)
       | LGlobal =>
           let* f := the_forms f in
           let* (m, t) := project_operator c b (op_of num f) in
           save_operator c m t d
       | LNone => Ok d
       end).

  (** The convection operators held by the solver. *)
  Definition convection := (option NlT * option NlE)%type.

  (** src/main_workflow.cpp:548-567: component elements. *)
  Definition assemble_from_elements (c : config) (p : Par) (b : Bas) (d : disk) : outcome (RMat * convection) :=
    oassert (by_component c)
      (let* l := read_lin d (operator_file c) in
       let m := mat_of_lin num p b l in
       if nonlinear (c_phys c)
       then match c_nl c with
            | HTensor => let* t := read_ten d (tensor_file c) in Ok (m, (Some (ten_sub num t), None))
            | HEqp => let* e := read_eqp d (eqp_file c) in Ok (m, (None, Some (eqp_sub num p b e)))
            | HNone => Abort
            end
       else Ok (m, (None, None))).

  (** src/main_workflow.cpp:568-573: [LoadROMOperatorFromFile], src/rom_handler.cpp:901-917,
      src/steady_ns_solver.cpp:604-642, include/unsteady_ns_solver.hpp:88-89. *)
  Definition load_operator (c : config) (d : disk) : outcome (RMat * convection) :=
    match c_phys c with
    | UnsteadyNS => Abort
    | SteadyNS =>
        let* m := read_mat d (operator_file c) in
        if tensorial c
        then let* t := read_ten_sub d (tensor_file c) in Ok (m, (Some t, None))
        else Ok (m, (None, None))
    | _ => let* m := read_mat d (operator_file c) in Ok (m, (None, None))
    end.

  (** src/main_workflow.cpp:547-584. *)
  Definition reduced_operators (c : config) (p : Par) (b : Bas) (d : disk) (f : option (forms Par))
    : outcome (RMat * convection * option (forms Par)) :=
    match c_level c with
    | LComponent => let* (m, k) := assemble_from_elements c p b d in Ok (m, k, f)
    | LGlobal => let* (m, k) := load_operator c d in Ok (m, k, f)
    | LNone =>
        let* f := setup_bc (build_forms p f) in
        let* g := the_forms f in
        let* (m, t) := project_operator c b (op_of num g) in
        Ok (m, (t, None), f)
    end.

  (** The restart state, if one is asked for: src/steady_ns_solver.cpp:767-773, src/unsteady_ns_solver.cpp
      [SetupInitialCondition]. *)
  Definition restart_state (c : config) (d : disk) : outcome (option Vec) :=
    match c_restart c with Some x => let* u := read_sol d x in Ok (Some u) | None => Ok None end.

  (** [SolveROM]: src/multiblock_solver.cpp:683-693 with src/rom_handler.cpp:609-622, src/steady_ns_solver.cpp:757-792
      with src/rom_handler.cpp:634-648, src/unsteady_ns_solver.cpp:470-605 (which calls the hyper-reduced forms whatever
      the handling).  Returns the reduced and the lifted solution. *)
  Definition solve_rom (c : config) (p : Par) (b : Bas) (m : RMat) (k : convection) (r : Red) (d : disk)
    : outcome (Red * Vec) :=
    let done (y : Red) := Ok (y, lift num b y) in
    match c_phys c with
    | UnsteadyNS =>
        let* u := restart_state c d in
        match snd k with Some e => done (march num p b m e r u) | None => UB end
    | SteadyNS =>
        let* u := restart_state c d in
        let guess := match u with Some u => proj num b u | None => random_guess num end in
        match c_nl c with
        | HTensor => match fst k with Some t => done (solve_ten num m t r guess) | None => Abort end
        | HEqp => match snd k with Some e => done (solve_eqp num m e r guess) | None => Abort end
        | HNone => UB
        end
    | _ => done (solve_lin num m r (zero_guess num))
    end.

  (** [Solve]: src/poisson_solver.cpp:430-, src/stokes_solver.cpp:707-815, src/steady_ns_solver.cpp:644-736,
      src/unsteady_ns_solver.cpp:82-, src/linelast_solver.cpp:306-, src/advdiff_solver.cpp: each starts from zero, from
      random values, from the initial condition or from a restart file, never from the present solution. *)
  Definition solve_fom (c : config) (p : Par) (o : Oper) (r : Vec) (d : disk) : outcome Vec :=
    let* u := (if nonlinear (c_phys c) then restart_state c d else Ok None) in
    Ok (full_solve num (c_phys c) p o r u).

  (** src/main_workflow.cpp:527-531: the report, every entry initialised to -1. *)
  Record report := mkreport { t_rom_assemble : R; t_rom_solve : R; t_fom_assemble : R; t_fom_solve : R; t_error : list R }.
  Definition no_report (c : config) : report :=
    mkreport (-1) (-1) (-1) (-1) (List.repeat (-1)%R (num_var (c_phys c))).
  Definition report_file (r : report) : file :=
    FReport [t_rom_assemble r; t_rom_solve r; t_fom_assemble r; t_fom_solve r] (t_error r).

  (** [Vector::Max]. *)
  Definition max_of (l : list R) : R := match l with [] => 0%R | x :: l => fold_left Rmax l x end.

  Record result := mkresult { r_solution : Vec; r_report : report; r_disk : disk; r_value : R }.

  (** src/main_workflow.cpp:623-630: the linear system is written through the ROM handler, which is absent in a
      full-order run.  Of its files only those of the two vectors are modelled (src/rom_handler.cpp:935-956). *)
  Definition save_system (c : config) (red : option (Red * Red)) (d : disk) : outcome disk :=
    match c_save_system c with
    | None => Ok d
    | Some x =>
        match red with
        | Some (r, y) => Ok (write (write d (x ++ "_rhs.txt") (FRed r)) (x ++ "_sol.txt") (FRed y))
        | None => UB
        end
    end.

  (** src/main_workflow.cpp:634-684: comparison with the full-order solution.  [clock] gives the readings of the stop
      watch.  [U] has one block for each variable and subdomain, and projecting it needs one for each basis
      (src/rom_handler.cpp:476), so the reduced full-order solution exists only when these agree. *)
  Definition compare (c : config) (p : Par) (b : Bas) (rhs : Vec) (f : option (forms Par)) (y : Red) (u : Vec)
      (clock : nat -> R) (rep : report) (d : disk) : outcome (Vec * report * disk) :=
    if c_compare c
    then
      let* (fom, rep) :=
        match c_fom_file c with
        | Some x => let* v := read_sol d x in Ok (v, rep)
        | None =>
            let* f := setup_bc (build_forms p f) in
            let* g := the_forms f in
            let* v := solve_fom c p (op_of num g) rhs d in
            Ok (v, mkreport (t_rom_assemble rep) (t_rom_solve rep) (clock 2) (clock 3) (t_error rep))
        end in
      let rep := mkreport (t_rom_assemble rep) (t_rom_solve rep) (t_fom_assemble rep) (t_fom_solve rep)
                          (rel_error num fom u) in
      let* d :=
        (if c_save_reduced c
         then oassert (c_sep c || Nat.eqb (num_var (c_phys c)) 1)
                (Ok (write (write d "rom_reduced_sol.txt" (FRed y)) "fom_reduced_sol.txt" (FRed (proj num b fom))))
         else Ok d) in
      Ok (u, rep, d)   (* CopySolution(romU) *)
    else Ok (u, rep, d).

  (** src/main_workflow.cpp:676-700: report, solution file, returned value. *)
  Definition finish (c : config) (output : string) (u : Vec) (rep : report) (d : disk) : result :=
    let d := (if String.eqb output "" then d else write d output (report_file rep)) in
    let d := match c_save_solution c with Some x => write d x (FSol u) | None => d end in
    mkresult u rep d (max_of (t_error rep)).

  (** src/main_workflow.cpp:485-704 [SingleRun], without the random choice of the sample and the visualization. *)
  Definition single_run (c : config) (p : Par) (output : string) (clock : nat -> R) (d : disk) : outcome result :=
    let* _ := new_solver c in
    let* _ := (if c_rom c then init_handler c else Ok tt) in
    let* rf := setup_bc (build_forms p None) in
    let* rf := the_forms rf in
    let rhs := rhs_of num rf in
    let rep := no_report c in
    if c_rom c
    then
      let* b := load_basis c d in
      let* _ := (if nonlinear (c_phys c) then allocate_nonlinear c else Ok tt) in
      let* (m, k, f) := reduced_operators c p b d None in
      let r := proj num b rhs in
      let* (y, u) := solve_rom c p b m k r d in
      let rep := mkreport (clock 0) (clock 1) (t_fom_assemble rep) (t_fom_solve rep) (t_error rep) in
      let* d := save_system c (Some (r, y)) d in
      let* (u, rep, d) := compare c p b rhs f y u clock rep d in
      Ok (finish c output u rep d)
    else
      let* f := setup_bc (build_forms p None) in
      let* g := the_forms f in
      let* u := solve_fom c p (op_of num g) rhs d in
      let rep := mkreport (t_rom_assemble rep) (t_rom_solve rep) (clock 0) (clock 1) (t_error rep) in
      let* d := save_system c None d in
      Ok (finish c output u rep d).

  (** The modes in the order in which a user runs them. *)
  Definition pipeline (c : config) (x : Samp) (pb pr : Par) (output : string) (clock : nat -> R) (d : disk)
    : outcome result :=
    let* d := train_rom c x d in
    let* d := build_rom c pb d in
    let* d := (if nonlinear (c_phys c) && hyper_reduced c then train_eqp c x d else Ok d) in
    single_run c pr output clock d.
End Drivers.
