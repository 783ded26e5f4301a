(** Model of the reduced time integration of src/unsteady_ns_solver.cpp: assembly of the reduced system and [SolveROM].

    Simplifications: as in [UnsteadyModel]; timers are left out; the linear solver of the ROM handler is a function of
    its right-hand side. *)
From Coq Require Import Reals List Bool Lia Arith ZArith String.
From Verif Require Import Outcome LaBase LinalgModel BlockVec TagsModel RomModel MbModel IntegModel UnsteadyModel.
Import ListNotations.
Local Open Scope list_scope.
Local Open Scope R_scope.

(** A 1 x 1 [MatrixBlocks] *)
Definition single (M : fmat) : mblocks := MBlocks 1 1 (fun i j => if ((i =? 0) && (j =? 0))%nat then Some M else None).
Definition scaled (a : R) (M : fmat) : fmat := FMat (fm_h M) (fm_w M) (fun p q => a * fm_val M p q).

Definition by_variable (h : rom) : bool := match rh_ord h with ByVariable => true | ByDomain => false end.

(** [GetSubArray(from, n, out)] *)
Definition sub_array (l : list nat) (from n : nat) : outcome (list nat) := omap (fun k => oread l (from + k)) (seq 0 n).

(** src/unsteady_ns_solver.cpp:441-468 [AssembleROMMat]: system matrix, mass matrix; [mass] are the velocity mass
    matrices of the components *)
Definition assemble_unsteady (a : asm) (mass : list fmat) (dt : R) : outcome (blockmat * blockmat) :=
  let h := as_rom a in
  let* B := assemble_rom_mat a in
  oassert (by_variable h) (
  let* uoff := sub_array (as_off a) 0 (rh_nsub h + 1) in
  ofor (rh_nsub h) (fun '(B, Mb) m =>
    let* c := oread (rh_types h) m in
    let* i := block_index h m 0 in
    let* M := oread mass c in
    let* Mb := add_to_block_matrix uoff [i] [i] (single M) Mb in
    let* B := add_to_block_matrix (as_off a) [i] [i] (single (scaled (bd0 / dt) M)) B in
    Ok (B, Mb)) (B, fun _ _ => None)).

(** src/unsteady_ns_solver.cpp:485-495: offsets of the reduced velocity, the reduced pressure, both variables *)
Definition rom_offsets (ns : nat) (off : list nat) : outcome (list nat * list nat * list nat) :=
  let* uo := sub_array off 0 (ns + 1) in
  let* po := sub_array off ns (ns + 1) in
  let* po := ofor (ns + 1) (fun po k => (* k counts down *)
    let* x := oread po (ns - k) in let* x0 := oread po 0 in owrite po (ns - k) (x - x0)%nat) po in
  let* n := oread off ns in
  let* e := oread off (2 * ns) in
  Ok (uo, po, [0; n; e]%nat).

(** src/unsteady_ns_solver.cpp:509-522: the constant pressure in the reduced space *)
Definition reduced_ones (s : romst) (ns : nat) (fom_po po : list nat) (pdbc : bool) : outcome vec :=
  let* total := oread po ns in
  let ones := BVec po (repeat 0 total) in
  if pdbc then Ok (bv_dat ones) else
  let* e := oread fom_po ns in
  let* ones := ofor ns (fun ones m =>
    let* i := block_index (rs_h s) m 1 in
    let* x := bv_get (BVec fom_po (repeat 1 e)) m in
    let* y := bv_get ones m in
    let* z := project_dom_vec s i x (List.length y) in
    bv_put ones m z) ones in
  Ok (bv_dat ones).

(** src/unsteady_ns_solver.cpp:526-592: one step; [base] is the projected right-hand side, [pN] the number of pressures *)
Definition rom_step (ns : nat) (uo vo : list nat) (o : uops) (dt : R) (pdbc : bool) (ones : vec) (pN : nat) (base : vec)
    (st : vec * R) : outcome (vec * R) :=
  let '(sol, time) := st in
  let* u1 := bv_get (BVec vo sol) 0 in
  let* Cu := convect ns uo o time u1 in  (* 547, 552: as in the full-order step *)
  let* r0 := bv_get (BVec vo base) 0 in
  oguard (List.length r0 =? List.length Cu)%nat (
  let r0 := map (fun i => vnth r0 i + - ab1 * vnth Cu i) (seq 0 (List.length r0)) in
  let* r0 := mass_addmult ns uo (uo_mass o) (- bd1 / dt) u1 r0 in
  let* r := bv_put (BVec vo base) 0 r0 in
  let sol := uo_solve o (bv_dat r) in
  oguard (List.length sol =? List.length (bv_dat r))%nat (
  if pdbc then Ok (sol, time + dt)
  else
    let* p := bv_get (BVec vo sol) 1 in
    oguard (List.length ones =? List.length p)%nat (
    let const := dot (List.length p) ones p / INR pN in
    let* b := bv_put (BVec vo sol) 1 (map (fun i => vnth p i + - const * vnth ones i) (seq 0 (List.length p))) in
    Ok (bv_dat b, time + dt)))).

(** src/unsteady_ns_solver.cpp:470-605 [SolveROM]; [eqps] tells whether the reduced nonlinear forms of the subdomains
    exist: [SetDiagonalBlock] looks at them.  [base] is [GetReducedRHS()]. *)
Definition urom_solve (s : romst) (c : ucfg) (o : uops) (eqps : bool) (base : bvec) (restart : option string) (ic : option vec) (junk : vec) (st : ust)
    : outcome ust :=
  let ns := uc_ns c in
  oassert (by_variable (rs_h s)) (
  let* (st, first) := setup_initial c restart ic st in
  let* (uo, po, vo) := rom_offsets ns (rs_off s) in
  let* a := project_global s (us_U st) junk in
  oguard eqps (
  let* ones := reduced_ones s ns (fo_p (uc_fo c)) po (uc_pdbc c) in
  let* pN := oread (fo_p (uc_fo c)) ns in
  let* (sol, time) := ofor (Z.to_nat (uc_nt c - first)) (fun x _ => rom_step ns uo vo o (uc_dt c) (uc_pdbc c) ones pN (bv_dat base) x) (bv_dat a, us_time st) in
  let* u := lift_global s (BVec (bv_off a) sol) (us_U st) in
  Ok (USt u (us_step st) (us_rhs st) time (us_files st) (us_snaps st) (us_vis st)))).
