(** Model of the time integration of src/unsteady_ns_solver.cpp: initial condition, steps, schedules, restart files.

    Simplifications: entries are exact reals, so the check for NaN (hpp:117-124) never fires; the CFL number and the timers, which
    change nothing, are left out; the direct solver is a function of its right-hand side; of the output for visualization the step,
    the time and the solution are kept; a snapshot is the solution handed to the sample generator. *)
From Coq Require Import Reals List Bool Lia Arith ZArith Ascii String.
From Verif Require Import Outcome ConfigModel LaBase BlockVec MbModel IntegModel.
Import ListNotations.
Local Open Scope list_scope.
Local Open Scope R_scope.

(** include/unsteady_ns_solver.hpp:37-43 *)
Definition bd0 : R := 1.
Definition bd1 : R := -1.
Definition ab1 : R := 1.

(** Options (src/unsteady_ns_solver.cpp:15-37, 95-96, src/multiblock_solver.cpp:83-112, 118-133); [uc_fo] are the layouts,
    [uc_gen] tells whether a sample generator is given *)
Record ucfg := UCfg { uc_ns : nat; uc_fo : flow_off; uc_nt : Z; uc_dt : R; uc_sol : solcfg; uc_restart : Z;
                      uc_vsave : bool; uc_vint : Z; uc_gen : bool; uc_sint : Z; uc_boot : Z; uc_pdbc : bool }.
(** Nonlinear forms of the subdomains and of the interfaces at a time, mass matrices of the subdomains, linear solver *)
Record uops := UOps { uo_hs : R -> nat -> vec -> vec; uo_itf : R -> vec -> vec; uo_mass : nat -> fm; uo_solve : vec -> vec }.
(** [U], [U_step], [RHS_step], [time]; what has been written *)
Record ust := USt { us_U : bvec; us_step : bvec; us_rhs : bvec; us_time : R; us_files : files;
                    us_snaps : list bvec; us_vis : list (Z * R * bvec) }.

(** ** File names *)

Fixpoint zeros (n : nat) : string := match n with O => EmptyString | S k => String "0"%char (zeros k) end.
(** [%08d] *)
Definition padded (w n : nat) : string := let d := index_key n in (zeros (w - String.length d) ++ d)%string.
Definition print08 (z : Z) : string := if (z <? 0)%Z then ("-" ++ padded 7 (Z.to_nat (- z)))%string else padded 8 (Z.to_nat z).
(** src/unsteady_ns_solver.cpp:89, 126 *)
Definition restart_name (c : solcfg) (step : Z) : string := (sc_dir c ++ "/" ++ sc_prefix c ++ "_" ++ print08 step ++ ".h5")%string.

(** ** One step *)

(** src/unsteady_ns_solver.cpp:237, 242: [Hop->Mult] (diagonal blocks), [InterfaceAddMult] *)
Definition convect (ns : nat) (uo : list nat) (o : uops) (t : R) (u1 : vec) : outcome vec :=
  let* b := ofor ns (fun b m =>
    let* x := bv_get (BVec uo u1) m in
    let* y := bv_get b m in
    let z := uo_hs o t m x in
    oguard (List.length z =? List.length y)%nat (bv_put b m z)) (BVec uo (repeat 0 (List.length u1))) in
  let z := uo_itf o t u1 in
  oguard (List.length z =? List.length u1)%nat (Ok (map (fun i => vnth (bv_dat b) i + vnth z i) (seq 0 (List.length u1)))).

(** src/unsteady_ns_solver.cpp:261: [massMat->AddMult(u1, y, a)], only diagonal blocks are set (77-79) *)
Definition mass_addmult (ns : nat) (uo : list nat) (mass : nat -> fm) (a : R) (u1 y : vec) : outcome vec :=
  let* b := ofor ns (fun b m =>
    let* x := bv_get (BVec uo u1) m in
    let* y := bv_get b m in
    bv_put b m (map (fun k => vnth y k + a * mult (List.length x) (mass m) (vnth x) k) (seq 0 (List.length y)))) (BVec uo y) in
  Ok (bv_dat b).

(** src/unsteady_ns_solver.cpp:223-283 [Step] *)
Definition time_step (c : ucfg) (o : uops) (rhs : bvec) (s : ust) : outcome ust :=
  let ns := uc_ns c in let vb := fo_vblock (uc_fo c) in let uo := fo_u (uc_fo c) in
  let* u1 := bv_get (BVec vb (bv_dat (us_step s))) 0 in
  let* Cu := convect ns uo o (us_time s) u1 in
  let* r := sort_by_variables ns 2 rhs (us_rhs s) in
  let* r0 := bv_get (BVec vb (bv_dat r)) 0 in
  oguard (List.length r0 =? List.length Cu)%nat (
  let r0 := map (fun i => vnth r0 i + - ab1 * vnth Cu i) (seq 0 (List.length r0)) in
  let* r0 := mass_addmult ns uo (uo_mass o) (- bd1 / uc_dt c) u1 r0 in
  let* r1 := bv_put (BVec vb (bv_dat r)) 0 r0 in
  let sol := uo_solve o (bv_dat r1) in
  oguard (List.length sol =? List.length (bv_dat r1))%nat (
  let* sol := (if uc_pdbc c then Ok sol else remove_mean vb sol) in
  Ok (USt (us_U s) (BVec (bv_off (us_step s)) sol) (BVec (bv_off (us_rhs s)) (bv_dat r1)) (us_time s + uc_dt c)
          (us_files s) (us_snaps s) (us_vis s)))).

(** ** The loop *)

(** [interval && (step % interval) == 0] *)
Definition due (interval step : Z) : bool := negb (interval =? 0)%Z && (Z.rem step interval =? 0)%Z.

Definition sync (c : ucfg) (s : ust) : outcome ust :=
  let* u := sort_by_subdomains (uc_ns c) 2 (us_step s) (us_U s) in
  Ok (USt u (us_step s) (us_rhs s) (us_time s) (us_files s) (us_snaps s) (us_vis s)).

(** src/unsteady_ns_solver.cpp:285-291 [SaveVisualization] *)
Definition visualize (c : ucfg) (step : Z) (s : ust) : outcome ust :=
  let* s := sync c s in
  if uc_vsave c then Ok (USt (us_U s) (us_step s) (us_rhs s) (us_time s) (us_files s) (us_snaps s) (us_vis s ++ [(step, us_time s, us_U s)]))
  else Ok s.

(** src/multiblock_solver.cpp:530-547 under the name of the step *)
Definition save_restart (c : ucfg) (step : Z) (s : ust) : outcome ust :=
  let* fs := save_with_time (uc_sol c) (us_files s) (restart_name (uc_sol c) step) (bv_dat (us_U s)) step (us_time s) in
  Ok (USt (us_U s) (us_step s) (us_rhs s) (us_time s) fs (us_snaps s) (us_vis s)).

(** src/unsteady_ns_solver.cpp:330-336 [PrepareSnapshots], src/multiblock_solver.cpp:652-667 [SaveSnapshots] *)
Definition snapshot (c : ucfg) (s : ust) : outcome ust :=
  let* s := sync c s in
  Ok (USt (us_U s) (us_step s) (us_rhs s) (us_time s) (us_files s) (us_snaps s ++ [us_U s]) (us_vis s)).

(** src/unsteady_ns_solver.cpp:107-136, body of the loop at [step] *)
Definition loop_body (c : ucfg) (o : uops) (rhs : bvec) (s : ust) (step : Z) : outcome ust :=
  let* s := time_step c o rhs s in
  let* s := if due (uc_vint c) (step + 1) then visualize c (step + 1) s else Ok s in
  let* s := if sc_save (uc_sol c) && due (uc_restart c) (step + 1) then save_restart c (step + 1) s else Ok s in
  if uc_gen c && negb (uc_sint c =? 0)%Z && (uc_boot c <? step + 1)%Z && (Z.rem (step + 1) (uc_sint c) =? 0)%Z then snapshot c s else Ok s.

(** src/unsteady_ns_solver.cpp:192-221 [SetupInitialCondition]; [restart] is the file to start from, [ic] the projected initial
    condition; result: state, initial step *)
Definition setup_initial (c : ucfg) (restart : option string) (ic : option vec) (s : ust) : outcome (ust * Z) :=
  match restart with
  | Some name =>
      let* (u, step, time) := load_with_time (us_files s) name (bv_dat (us_U s)) in
      Ok (USt (BVec (bv_off (us_U s)) u) (us_step s) (us_rhs s) time (us_files s) (us_snaps s) (us_vis s), step)
  | None =>
      let* u := match ic with
                | Some d => oguard (List.length d =? List.length (bv_dat (us_U s)))%nat (Ok d)
                | None => Ok (bv_dat (us_U s)) end in
      let s := USt (BVec (bv_off (us_U s)) u) (us_step s) (us_rhs s) 0 (us_files s) (us_snaps s) (us_vis s) in
      let* s := if sc_save (uc_sol c) then save_restart c 0 s else Ok s in
      Ok (s, 0%Z)
  end.

(** src/unsteady_ns_solver.cpp:82-147 [Solve], 149-190 [InitializeTimeIntegration]; [junk], [junk'] are the new vectors' memory *)
Definition unsteady_solve (c : ucfg) (o : uops) (rhs : bvec) (restart : option string) (ic : option vec) (junk junk' : vec) (s : ust) : outcome ust :=
  let* (s, first) := setup_initial c restart ic s in
  if Rlt_dec 0 (uc_dt c) then
    let* off := offsets_byvar (uc_ns c) 2 (fo_u (uc_fo c)) (fo_p (uc_fo c)) in
    let* y := sort_by_variables (uc_ns c) 2 (us_U s) (BVec off junk) in
    let* s := visualize c 0 (USt (us_U s) y (BVec off junk') (us_time s) (us_files s) (us_snaps s) (us_vis s)) in
    let* s := ofor (Z.to_nat (uc_nt c - first)) (fun s k => loop_body c o rhs s (first + Z.of_nat k)) s in
    sync c s
  else Abort.

(** src/unsteady_ns_solver.cpp:153-158: block (0, 0) of the system matrix; [visc] is the viscous operator *)
Definition uu_matrix (ns : nat) (uo : list nat) (mass : nat -> fm) (dt : R) (visc : fm) : outcome fm :=
  let* mono := ofor ns (fun J m =>
    let* a := oread uo m in
    let* e := oread uo (m + 1) in
    Ok (add_matrix 1 (mass m) (e - a) (e - a) a a J)) zero_m in
  Ok (add_m 1 visc (fun p q => bd0 / dt * add_m 1 mono zero_m p q)).
