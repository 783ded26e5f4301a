(** The convection tensors of the steady Navier-Stokes solver: building, saving, loading, handing them to the subdomains
    and releasing them, with the hyper-reduced forms as far as their lifetime is concerned.

    Allocations are numbered in the order they are made; nothing is released before the destructor, which is a separate
    function.  Simplified: what a call computes for the linear part of the ROM is one value of type [M]; the content of
    the hyper-reduced forms and of their files is [NeqModel]; a component name is one path segment of a file. *)
From Coq Require Import ZArith List Bool String.
From Verif Require Import Outcome HdfModel LaBase.
Import ListNotations.
Local Open Scope nat_scope.
Local Open Scope string_scope.
Local Open Scope list_scope.

(** include/rom_handler.hpp [ROMBuildingLevel], [NonlinearHandling] *)
Inductive blevel := LevNone | LevGlobal | LevComponent.
Inductive nlhand := NlNone | NlTensor | NlEqp.
Definition is_global (l : blevel) : bool := match l with LevGlobal => true | _ => false end.
Definition is_component (l : blevel) : bool := match l with LevComponent => true | _ => false end.

(** What the configuration fixes: names of the components, component of each subdomain, topology by components,
    [main/use_rom], Lax-Friedrichs flux, building level, handling, prefix of the operator files. *)
Record setup := Setup { s_names : list string; s_types : list nat; s_bycomp : bool; s_rom : bool; s_lf : bool;
  s_level : blevel; s_nl : nlhand; s_prefix : string }.
Definition num_comp (c : setup) : nat := List.length (s_names c).
Definition num_sub (c : setup) : nat := List.length (s_types c).

Definition tensor_file (prefix : string) : string := String.append prefix ".tensor.h5".

Section Ten.
  Context {D M : Type}.

  (** An allocated tensor, form or interface form. *)
  Inductive obj := OTensor (t : tensor D) | OForm.

  (** The members: [comp_tensors], [subdomain_tensors], [comp_eqps], [subdomain_eqps], [itf_eqp]; pointers are
      allocation numbers.  The handler with its loaded basis and linear operator. *)
  Record solver := Solver { v_heap : list obj; v_ct : list (option nat); v_st : list (option nat);
    v_ce : list (option nat); v_se : list (option nat); v_itf : option nat;
    v_handler : bool; v_basis : bool; v_mat : option M }.

  (** include/steady_ns_solver.hpp:134-160: a new solver. *)
  Definition new_ns : solver := Solver [] [] [] [] [] None false false None.

  Inductive dfile := FMatrix (m : M) | FGroups (g : hgroup D).
  Definition disk := string -> option dfile.
  (** [H5Fcreate] with [H5F_ACC_TRUNC] *)
  Definition put (d : disk) (name : string) (f : dfile) : disk := fun n => if String.eqb n name then Some f else d n.
  (** [H5Fopen] *)
  Definition get_groups (d : disk) (name : string) : outcome (hgroup D) :=
    match d name with Some (FGroups g) => Ok g | _ => Abort end.
  Definition get_matrix (d : disk) (name : string) : outcome M :=
    match d name with Some (FMatrix m) => Ok m | _ => Abort end.

  (** [for (i < n) a[i] = new ...] *)
  Definition fill (n : nat) (gen : nat -> outcome obj) (ha : list obj * list (option nat)) : outcome (list obj * list (option nat)) :=
    ofor n (fun (ha : list obj * list (option nat)) i =>
      let* o := gen i in
      let* a := owrite (snd ha) i (Some (List.length (fst ha))) in
      Ok (fst ha ++ [o], a)) ha.

  Definition nulls (n : nat) : list (option nat) := repeat None n.

  (** [*p] of a tensor *)
  Definition deref (s : solver) (p : option nat) : outcome (tensor D) :=
    match p with
    | None => UB
    | Some i => let* o := oread (v_heap s) i in match o with OTensor t => Ok t | OForm => UB end
    end.

  Section Calls.
    Variable c : setup.
    (** [GetReducedTensor] for component [c] and for subdomain [m], the projected linear operator. *)
    Variable red : nat -> tensor D.
    Variable red_sub : nat -> tensor D.
    Variable proj : M.

    (** src/steady_ns_solver.cpp:1387-1388 *)
    Definition reduced_tensor (r : nat -> tensor D) (i : nat) : outcome obj := oassert (negb (s_lf c)) (Ok (OTensor (r i))).

    (** src/steady_ns_solver.cpp:794-811 [InitROMHandler]; a handling is needed (include/rom_handler.hpp:140-142); the
        spaces of the components exist only for component topologies. *)
    Definition init_rom_handler (s : solver) : outcome solver :=
      oassert (match s_nl c with NlNone => false | _ => true end)
      (oguard (negb (s_lf c) || s_bycomp c)
      (let '(h, itf) := if s_lf c then (v_heap s ++ [OForm], Some (List.length (v_heap s))) else (v_heap s, v_itf s) in
       Ok (Solver h (v_ct s) (nulls (num_sub c)) (v_ce s) (nulls (num_sub c)) itf true false None))).

    (** src/stokes_solver.cpp [LoadReducedBasis] *)
    Definition load_basis (s : solver) : outcome solver :=
      oguard (v_handler s)
      (Ok (Solver (v_heap s) (v_ct s) (v_st s) (v_ce s) (v_se s) (v_itf s) true true (v_mat s))).

    (** src/steady_ns_solver.cpp:813-829 with 879-884 and 999-1092 [AllocateROMNlinElems]. *)
    Definition allocate (s : solver) : outcome solver :=
      oguard (v_handler s)
      (match s_nl c with
       | NlTensor => Ok (Solver (v_heap s) (nulls (num_comp c)) (v_st s) (v_ce s) (v_se s) (v_itf s) (v_handler s) (v_basis s) (v_mat s))
       | NlEqp =>
           oassert (v_basis s)
           (let* (h, a) := fill (num_comp c) (fun _ => Ok OForm) (v_heap s, nulls (num_comp c)) in
            oassert (negb (s_lf c) || match v_itf s with Some _ => true | None => false end)
            (Ok (Solver h (v_ct s) (v_st s) a (v_se s) (v_itf s) (v_handler s) (v_basis s) (v_mat s))))
       | NlNone => Abort
       end).

    (** src/steady_ns_solver.cpp:886-905 [BuildROMTensorElems] *)
    Definition build_tensors (s : solver) : outcome solver :=
      oassert (s_bycomp c)
      (oguard (v_handler s)
      (oassert (v_basis s)
      (oassert (Nat.eqb (List.length (v_ct s)) (num_comp c))
      (let* (h, a) := fill (num_comp c) (reduced_tensor red) (v_heap s, v_ct s) in
       Ok (Solver h a (v_st s) (v_ce s) (v_se s) (v_itf s) (v_handler s) (v_basis s) (v_mat s)))))).

    (** src/steady_ns_solver.cpp:923-938: the groups of the components. *)
    Definition save_component (s : solver) (g : hgroup D) (i : nat) : outcome (hgroup D) :=
      let* p := oread (v_ct s) i in
      oassert (match p with Some _ => true | None => false end)
      (let* name := oread (s_names c) i in
       let* t := deref s p in
       let* cg := write_tensor empty_group "tensor" t in
       h5_create g name (Grp (attrs cg) (links cg))).

    (** src/steady_ns_solver.cpp:907-945 [SaveROMTensorElems] *)
    Definition save_tensors (file : string) (s : solver) (d : disk) : outcome disk :=
      oassert (s_bycomp c)
      (oassert (Nat.eqb (List.length (v_ct s)) (num_comp c))
      (let* g := ofor (num_comp c) (save_component s) empty_group in
       let* f := h5_create empty_group "components" (Grp (attrs g) (links g)) in
       Ok (put d file (FGroups f)))).

    (** src/steady_ns_solver.cpp:966-976 *)
    Definition load_component (g : hgroup D) (i : nat) : outcome obj :=
      let* name := oread (s_names c) i in
      let* cg := h5_open_group g name in
      let* t := read_tensor cg "tensor" in
      Ok (OTensor t).

    (** src/steady_ns_solver.cpp:947-984 [LoadROMTensorElems] *)
    Definition load_tensors (file : string) (s : solver) (d : disk) : outcome solver :=
      oassert (s_bycomp c)
      (let* f := get_groups d file in
       oassert (Nat.eqb (List.length (v_ct s)) (num_comp c))
       (let* g := h5_open_group f "components" in
        let* (h, a) := fill (num_comp c) (load_component g) (v_heap s, v_ct s) in
        Ok (Solver h a (v_st s) (v_ce s) (v_se s) (v_itf s) (v_handler s) (v_basis s) (v_mat s)))).

    (** src/steady_ns_solver.cpp:830-844 [SaveROMNlinElems] *)
    Definition save_elems (prefix : string) (s : solver) (d : disk) : outcome disk :=
      oguard (v_handler s)
      (match s_nl c with NlTensor => save_tensors (tensor_file prefix) s d | NlEqp => Ok d | NlNone => Abort end).

    (** src/steady_ns_solver.cpp:846-860 [LoadROMNlinElems]; rules of the forms: 1212-1218, 1231. *)
    Definition load_elems (prefix : string) (s : solver) (d : disk) : outcome solver :=
      oguard (v_handler s)
      (match s_nl c with
       | NlTensor => load_tensors (tensor_file prefix) s d
       | NlEqp => oassert (s_bycomp c) (oassert (v_basis s) (oassert (Nat.eqb (List.length (v_ce s)) (num_comp c)) (Ok s)))
       | NlNone => Abort
       end).

    (** src/steady_ns_solver.cpp:986-996 [AssembleROMTensorOper] with src/rom_handler.cpp:276-281. *)
    Definition assemble_tensors (s : solver) : outcome solver :=
      oassert (s_bycomp c)
      (oassert (Nat.eqb (List.length (v_ct s)) (num_comp c))
      (let* a := ofor (num_sub c) (fun a m =>
           let* t := oread (s_types c) m in
           let* p := oread (v_ct s) t in
           owrite a m p) (nulls (num_sub c)) in
       Ok (Solver (v_heap s) (v_ct s) a (v_ce s) (v_se s) (v_itf s) (v_handler s) (v_basis s) (v_mat s)))).

    (** src/steady_ns_solver.cpp:1293-1378 [AssembleROMEQPOper]: the forms of the subdomains, made from those of their
        components. *)
    Definition assemble_forms (s : solver) : outcome solver :=
      oassert (s_bycomp c)
      (oassert (Nat.eqb (List.length (v_ce s)) (num_comp c))
      (let* (h, a) := fill (num_sub c) (fun m =>
           let* t := oread (s_types c) m in
           let* p := oread (v_ce s) t in
           match p with Some _ => Ok OForm | None => UB end) (v_heap s, nulls (num_sub c)) in
       Ok (Solver h (v_ct s) (v_st s) (v_ce s) a (v_itf s) (v_handler s) (v_basis s) (v_mat s)))).

    (** src/steady_ns_solver.cpp:862-877 [AssembleROMNlinOper] *)
    Definition assemble (s : solver) : outcome solver :=
      oguard (v_handler s)
      (match s_nl c with NlTensor => assemble_tensors s | NlEqp => assemble_forms s | NlNone => Abort end).

    (** src/steady_ns_solver.cpp:738-755 [ProjectOperatorOnReducedBasis] *)
    Definition project (s : solver) : outcome solver :=
      oguard (v_handler s)
      (oassert (v_basis s)
      (match s_nl c with
       | NlTensor =>
           let* (h, a) := fill (num_sub c) (reduced_tensor red_sub) (v_heap s, nulls (num_sub c)) in
           Ok (Solver h (v_ct s) a (v_ce s) (v_se s) (v_itf s) (v_handler s) (v_basis s) (Some proj))
       | _ => Ok (Solver (v_heap s) (v_ct s) (v_st s) (v_ce s) (v_se s) (v_itf s) (v_handler s) (v_basis s) (Some proj))
       end)).

    (** "subdomain" + std::to_string(m) *)
    Definition sub_name (m : nat) : string := String.append "subdomain" (ConfigModel.index_key m).

    (** src/steady_ns_solver.cpp:576-602 [SaveROMOperator] with src/rom_handler.cpp:434-448: the matrix goes to the given
        file, the tensors to the file of the configured prefix. *)
    Definition save_operator (name : string) (s : solver) (d : disk) : outcome disk :=
      oguard (v_handler s)
      (oassert (is_global (s_level c))
      (match v_mat s with
       | None => Abort
       | Some m =>
           let d1 := put d name (FMatrix m) in
           match s_nl c with
           | NlTensor =>
               let* g := ofor (num_sub c) (fun g i =>
                   let* p := oread (v_st s) i in
                   let* t := deref s p in
                   write_tensor g (sub_name i) t) empty_group in
               let* f := h5_create empty_group "ROM_tensors" (Grp (attrs g) (links g)) in
               Ok (put d1 (tensor_file (s_prefix c)) (FGroups f))
           | _ => Ok d1
           end
       end)).

    (** src/steady_ns_solver.cpp:604-642 [LoadROMOperatorFromFile] with src/rom_handler.cpp:901-917. *)
    Definition load_operator (name : string) (s : solver) (d : disk) : outcome solver :=
      oguard (v_handler s)
      (oassert (is_global (s_level c))
      (let* m := get_matrix d name in
       match s_nl c with
       | NlTensor =>
           let* f := get_groups d (tensor_file (s_prefix c)) in
           let* g := h5_open_group f "ROM_tensors" in
           let* (h, a) := fill (num_sub c) (fun i => let* t := read_tensor g (sub_name i) in Ok (OTensor t)) (v_heap s, nulls (num_sub c)) in
           Ok (Solver h (v_ct s) a (v_ce s) (v_se s) (v_itf s) (v_handler s) (v_basis s) (Some m))
       | _ => Ok (Solver (v_heap s) (v_ct s) (v_st s) (v_ce s) (v_se s) (v_itf s) (v_handler s) (v_basis s) (Some m))
       end)).

    (** src/steady_ns_solver.cpp:776-781 [SolveROM]: the tensors that the reduced problem is solved with. *)
    Definition solve_tensors (s : solver) : outcome (list (tensor D)) :=
      oassert (Nat.eqb (List.length (v_st s)) (num_sub c))
      (oassert (forallb (fun p : option nat => match p with Some _ => true | None => false end) (v_st s))
      (omap (deref s) (v_st s))).

    (** The calls that concern these members. *)
    Inductive call :=
    | InitHandler | LoadBasis | Allocate | BuildTensors | SaveElems (prefix : string) | LoadElems (prefix : string)
    | AssembleNlin | Project | SaveOperator (name : string) | LoadOperator (name : string).

    Definition step (sd : solver * disk) (k : call) : outcome (solver * disk) :=
      let (s, d) := sd in
      match k with
      | InitHandler => let* s := init_rom_handler s in Ok (s, d)
      | LoadBasis => let* s := load_basis s in Ok (s, d)
      | Allocate => let* s := allocate s in Ok (s, d)
      | BuildTensors => let* s := build_tensors s in Ok (s, d)
      | SaveElems p => let* d := save_elems p s d in Ok (s, d)
      | LoadElems p => let* s := load_elems p s d in Ok (s, d)
      | AssembleNlin => let* s := assemble s in Ok (s, d)
      | Project => let* s := project s in Ok (s, d)
      | SaveOperator n => let* d := save_operator n s d in Ok (s, d)
      | LoadOperator n => let* s := load_operator n s d in Ok (s, d)
      end.

    Definition run (ks : list call) (d : disk) : outcome (solver * disk) := ofold step ks (new_ns, d).

    (** [delete p]: null is ignored, what was released before is released twice. *)
    Definition free (fl : list bool) (p : option nat) : outcome (list bool) :=
      match p with
      | None => Ok fl
      | Some i => let* b := oread fl i in if b then UB else owrite fl i true
      end.
    (** [DeletePointers] *)
    Definition free_all (ps : list (option nat)) (fl : list bool) : outcome (list bool) := ofold free ps fl.

    (** src/steady_ns_solver.cpp:457-486 [~SteadyNSSolver]; the result says which allocations have been released. *)
    Definition destroy (s : solver) : outcome (list bool) :=
      let fl := repeat false (List.length (v_heap s)) in
      if s_rom c then
        oguard (v_handler s)
        (match s_nl c with
         | NlTensor =>
             let* fl := free_all (v_ct s) fl in
             if is_component (s_level c) then Ok fl else free_all (v_st s) fl
         | NlEqp =>
             let* fl := free_all (v_ce s) fl in
             let* fl := free_all (v_se s) fl in
             free fl (v_itf s)
         | NlNone => Ok fl
         end)
      else Ok fl.
  End Calls.

  (** src/main_workflow.cpp:425-470: building at the level of components, and globally. *)
  Definition build_component (prefix : string) : list call := [InitHandler; LoadBasis; Allocate; BuildTensors; SaveElems prefix].
  Definition build_global (name : string) : list call := [InitHandler; LoadBasis; Allocate; Project; SaveOperator name].
  (** src/main_workflow.cpp:500-584: a single run at each level. *)
  Definition run_component (prefix : string) : list call := [InitHandler; LoadBasis; Allocate; LoadElems prefix; AssembleNlin].
  Definition run_global (name : string) : list call := [InitHandler; LoadBasis; Allocate; LoadOperator name].
  Definition run_none : list call := [InitHandler; LoadBasis; Allocate; Project].
End Ten.
Arguments obj : clear implicits.
Arguments solver : clear implicits.
Arguments dfile : clear implicits.
Arguments disk : clear implicits.
