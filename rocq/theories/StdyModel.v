(** Model of the solution of steady flow problems: the full order solve (class [SteadyNSSolver]) and the nonlinear reduced solve (class
    [MFEMROMHandler]), with the iteration of MFEM.

    Simplifications: real numbers. The correction of an iteration (of Newton's method with a linear solver, or of L-BFGS) is a function
    of the iterates so far. Allocation is left out, except that a missing right-hand side or preconditioner is one. *)
From Coq Require Import Reals List Bool Lia Arith ZArith String.
From Verif Require Import Outcome LaBase BlockVec RomModel MbModel LinalgModel CgoModel.
Import ListNotations.
Local Open Scope list_scope.
Local Open Scope R_scope.

(** ** Iteration *)

(** [Norm]: the Euclidean norm *)
Definition norm (v : vec) : R := sqrt (dot (List.length v) v v).

(** [oper->Mult(x, r); r -= b;] *)
Definition residual (F : vec -> outcome vec) (b x : vec) : outcome vec :=
  let* y := F x in oguard (List.length y =? List.length b)%nat (Ok (vadd y (-1) b)).

(** MFEM: the loop of [NewtonSolver::Mult] and [LBFGSSolver::Mult]; [todo] iterations are left, [xs] are the iterates before [x],
    the last one first. The result is the solution and [converged]. *)
Fixpoint newton_loop (todo : nat) (F : vec -> outcome vec) (next : list vec -> vec -> outcome vec) (goal : R) (b : vec) (xs : list vec) (x r : vec) : outcome (vec * bool) :=
  if rltb goal (norm r) then
    match todo with
    | O => Ok (x, false)
    | S todo =>
        let* c := next (x :: xs) r in
        oguard (List.length c =? List.length x)%nat (
        let x' := vadd x (-1) c in
        let* r' := residual F b x' in
        newton_loop todo F next goal b (x :: xs) x' r')
    end
  else Ok (x, true).

(** MFEM: [NewtonSolver::Mult] ([norm_goal]) *)
Definition newton (rtol atol : R) (max_iter : nat) (F : vec -> outcome vec) (next : list vec -> vec -> outcome vec) (b x : vec) : outcome (vec * bool) :=
  let* r := residual F b x in
  newton_loop max_iter F next (Rmax (rtol * norm r) atol) b [] x r.

(** MFEM: the correction of Newton's method, with the gradient [G] of the operator and a linear solver [lin] *)
Definition newton_step {J} (G : vec -> outcome J) (lin : J -> vec -> vec) (xs : list vec) (r : vec) : outcome vec :=
  match xs with
  | [] => UB
  | x :: _ => let* j := G x in Ok (lin j r)
  end.

(** ** Full order *)

(** Options of a solve: src/steady_ns_solver.cpp:646-660 *)
Record scfg := SCfg { sc_rtol : R; sc_atol : R; sc_maxit : nat; sc_restart : option string }.

(** src/steady_ns_solver.cpp:644-736 [Solve]: the solution, [converged], and whether a snapshot of the solution is saved. [gen]: there is a
    sample generator; [rnd]: the random numbers; [junk], [junk2]: the memory of the new vectors. *)
Definition steady_solve (ns : nat) (fo : flow_off) (pres_dbc : bool) (c : scfg) (F : vec -> outcome vec) (next : list vec -> vec -> outcome vec)
    (fs : files) (rnd : nat -> R) (gen : bool) (rhs u : bvec) (junk junk2 : vec) : outcome (bvec * bool * bool) :=
  let* off := offsets_byvar ns 2 (fo_u fo) (fo_p fo) in
  let* r := sort_by_variables ns 2 rhs (BVec off junk) in
  let* (u, x0) :=
    match sc_restart c with
    | Some name =>
        let* d := load_solution fs name (bv_dat u) in
        let* y := sort_by_variables ns 2 (BVec (bv_off u) d) (BVec off junk2) in
        Ok (BVec (bv_off u) d, bv_dat y)
    | None => Ok (u, map (fun k => / 100000 * rnd k) (seq 0 (List.length junk2)))
    end in
  let* (x, conv) := newton (sc_rtol c) (sc_atol c) (sc_maxit c) F next (bv_dat r) x0 in
  let* x := (if pres_dbc then Ok x else remove_mean (fo_vblock fo) x) in
  let* u := sort_by_subdomains ns 2 (BVec off x) u in
  Ok (u, conv, conv && gen).

(** ** Reduced *)

(** Options: src/rom_handler.cpp:339-358, 640-661, 682 *)
Record rcfg := RCfg { rc_linear : string; rc_system : string; rc_prec : string; rc_nonlinear : string; rc_restart : bool; rc_amp : R;
                      rc_rtol : R; rc_atol : R; rc_maxit : nat }.

(** include/rom_handler.hpp: [SolverType] *)
Inductive lin_type := Direct | Cg | Minres.

(** src/rom_handler.cpp:331-362: constructor *)
Definition rom_lin_type (c : rcfg) : outcome lin_type :=
  let* t := (if string_dec (rc_linear c) "direct" then Ok Direct
             else if string_dec (rc_linear c) "cg" then Ok Cg
             else if string_dec (rc_linear c) "minres" then Ok Minres
             else Abort) in
  match t with
  | Direct => if string_dec (rc_system c) "spd" then Ok t else if string_dec (rc_system c) "sid" then Ok t
              else if string_dec (rc_system c) "us" then Ok t else Abort
  | _ => Ok t
  end.

(** src/rom_handler.cpp:634-711 [NonlinearSolve], called on the handler made with the same options; [prec]: a preconditioner is given (which
    belongs to [next]); [rhs] is [reduced_rhs]; [co], [cc]: the operator and the constants of the optimizer. The result is the full order
    state and [reduced_sol]; [None] if the optimizer does not end. *)
Definition rom_nonlinear_solve (c : rcfg) (s : romst) (F : vec -> outcome vec) (next : lin_type -> list vec -> vec -> outcome vec) (cc : cgcfg) (co : cgop)
    (prec : bool) (rnd : nat -> R) (rhs : option bvec) (U : bvec) (junk : vec) : option (outcome (bvec * bvec)) :=
  match rom_lin_type c with
  | Ok t =>
      if negb (bv_n U =? num_blocks (rs_h s))%nat then Some Abort
      else
        match (if rc_restart c then project_global s U junk
               else Ok (BVec (rs_off s) (map (fun k => rc_amp c * rnd k) (seq 0 (last (rs_off s) 0%nat))))) with
        | Ok x0 =>
            if negb (if string_dec (rc_prec c) "none" then true else prec) then Some Abort
            else
              let lift x := lift_global s (BVec (rs_off s) x) U in
              match (if string_dec (rc_nonlinear c) "newton" then
                       Some (match rhs with
                             | None => UB
                             | Some b => newton (rc_rtol c) (rc_atol c) (rc_maxit c) F (next t) (bv_dat b) (bv_dat x0)
                             end)
                     else if string_dec (rc_nonlinear c) "cg" then
                       match rhs with
                       | None => Some UB
                       | Some b => cg_mult cc co (List.length (bv_dat x0)) (rc_atol c) (rc_rtol c) (rc_maxit c) false (bv_dat b) (bv_dat x0)
                       end
                     else Some Abort) with
              | None => None
              | Some res => Some (let* (x, _) := res in let* V := lift x in Ok (V, BVec (rs_off s) x))
              end
        | Abort => Some Abort
        | UB => Some UB
        end
  | Abort => Some Abort
  | UB => Some UB
  end.

(** src/steady_ns_solver.cpp:757-792 [SolveROM]: the restart state is loaded into the solution; no preconditioner is passed. [file]: the name
    of the restart file. *)
Definition steady_solve_rom (c : rcfg) (file : string) (fs : files) (s : romst) (F : vec -> outcome vec) (next : lin_type -> list vec -> vec -> outcome vec)
    (cc : cgcfg) (co : cgop) (rnd : nat -> R) (rhs : option bvec) (U : bvec) (junk : vec) : option (outcome (bvec * bvec)) :=
  match (if rc_restart c then let* d := load_solution fs file (bv_dat U) in Ok (BVec (bv_off U) d) else Ok U) with
  | Ok U => rom_nonlinear_solve c s F next cc co false rnd rhs U junk
  | Abort => Some Abort
  | UB => Some UB
  end.
