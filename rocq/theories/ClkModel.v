(** Model of the data of an unsteady flow run: the clocks of the coefficients, the right-hand side they are assembled into, the
    initial condition, and what watches over the run (CFL number, check for NaN).

    Simplifications: the value of a coefficient at a time is an abstract field ([D]); the linear forms and the nonlinear forms are
    functions of the present values of the coefficients they hold (their integrals are the subject of other files); of a double
    precision number it is kept whether it is a number, infinities are numbers too large to matter and are left out. *)
From Coq Require Import Reals List Bool Lia Arith ZArith.
From Verif Require Import Outcome LaBase BlockVec MbModel IntegModel UnsteadyModel.
Import ListNotations.
Local Open Scope list_scope.
Local Open Scope R_scope.

(** ** Coefficients *)

(** [VectorCoefficient] of MFEM: a function of time and space, and the time it is evaluated at. *)
Record coef (D : Type) := Coef { cf_fun : R -> D; cf_clock : R }.
Arguments Coef {D}. Arguments cf_fun {D}. Arguments cf_clock {D}.
(** The constructor starts the clock at zero. *)
Definition new_coef {D} (f : R -> D) : coef D := Coef f 0.
Definition value {D} (c : coef D) : D := cf_fun c (cf_clock c).
Definition values {D} (cs : list (option (coef D))) : list (option D) := map (option_map value) cs.

(** include/stokes_solver.hpp:122-129: forcing, velocity at the boundaries, stress at the boundaries *)
Record coefs (D : Type) := Coefs { co_f : list (option (coef D)); co_ud : list (option (coef D)); co_sn : list (option (coef D)) }.
Arguments Coefs {D}. Arguments co_f {D}. Arguments co_ud {D}. Arguments co_sn {D}.

(** [if (c[k]) c[k]->SetTime(time);] *)
Definition set_clock {D} (t : R) (c : option (coef D)) : option (coef D) := match c with Some c => Some (Coef (cf_fun c) t) | None => None end.
Definition set_clocks {D} (t : R) (cs : list (option (coef D))) : outcome (list (option (coef D))) :=
  ofor (List.length cs) (fun cs k => let* c := oread cs k in owrite cs k (set_clock t c)) cs.
(** src/unsteady_ns_solver.cpp:390-401 [SetTime] *)
Definition set_time {D} (t : R) (c : coefs D) : outcome (coefs D) :=
  let* f := set_clocks t (co_f c) in
  let* ud := set_clocks t (co_ud c) in
  let* sn := set_clocks t (co_sn c) in
  Ok (Coefs f ud sn).

(** What a flow problem gives: forcing, data of its boundaries; src/stokes_solver.cpp:1082-1146 creates the coefficients. *)
Record data (D : Type) := Data { da_f : list (option (R -> D)); da_ud : list (option (R -> D)); da_sn : list (option (R -> D)) }.
Arguments Data {D}. Arguments da_f {D}. Arguments da_ud {D}. Arguments da_sn {D}.
Definition new_coefs {D} (p : data D) : coefs D := Coefs (map (option_map new_coef) (da_f p)) (map (option_map new_coef) (da_ud p)) (map (option_map new_coef) (da_sn p)).

(** What the forms yield for present values: the right-hand side ([AssembleRHS], src/stokes_solver.cpp:377-394), the convection of
    the subdomains (its boundary integrators hold [ud_coeffs], src/steady_ns_solver.cpp:532-564) and of the interfaces, the mass
    matrices and the linear solver. *)
Record forms (D : Type) := Forms { fm_rhs : list (option D) -> list (option D) -> bvec; fm_conv : list (option D) -> nat -> vec -> vec;
                                   fm_itf : vec -> vec; fm_mass : nat -> fm; fm_solve : vec -> vec }.
Arguments Forms {D}. Arguments fm_rhs {D}. Arguments fm_conv {D}. Arguments fm_itf {D}. Arguments fm_mass {D}. Arguments fm_solve {D}.

(** src/stokes_solver.cpp:377-394 [AssembleRHS] with the clocks as they are *)
Definition assemble_rhs {D} (F : forms D) (c : coefs D) : bvec := fm_rhs F (values (co_f c)) (values (co_ud c)).
(** the operators with the clocks as they are *)
Definition ops_now {D} (F : forms D) (c : coefs D) : uops := UOps (fun _ => fm_conv F (values (co_ud c))) (fun _ => fm_itf F) (fm_mass F) (fm_solve F).

(** src/unsteady_ns_solver.cpp:107-136, 223-283: body of the loop, [SetTime] first *)
Definition clk_body {D} (c : ucfg) (F : forms D) (rhs : bvec) (s : coefs D * ust) (step : Z) : outcome (coefs D * ust) :=
  let (cs, s) := s in
  let* cs := set_time (us_time s) cs in
  let* s := loop_body c (ops_now F cs) rhs s step in
  Ok (cs, s).

(** src/unsteady_ns_solver.cpp:82-147 [Solve] with the coefficients; [UnsteadyModel.unsteady_solve] without *)
Definition clk_solve {D} (c : ucfg) (F : forms D) (cs : coefs D) (rhs : bvec) (restart : option String.string) (ic : option vec) (junk junk' : vec) (s : ust) :
  outcome (coefs D * ust) :=
  let* (s, first) := setup_initial c restart ic s in
  if Rlt_dec 0 (uc_dt c) then
    let* off := offsets_byvar (uc_ns c) 2 (fo_u (uc_fo c)) (fo_p (uc_fo c)) in
    let* y := sort_by_variables (uc_ns c) 2 (us_U s) (BVec off junk) in
    let* s := visualize c 0 (USt (us_U s) y (BVec off junk') (us_time s) (us_files s) (us_snaps s) (us_vis s)) in
    let* (cs, s) := ofor (Z.to_nat (uc_nt c - first)) (fun s k => clk_body c F rhs s (first + Z.of_nat k)) (cs, s) in
    let* s := sync c s in
    Ok (cs, s)
  else Abort.

(** A run (src/main_workflow.cpp [SingleRun]): the problem is set, the right-hand side is assembled, then the solver runs. *)
Definition clk_run {D} (c : ucfg) (F : forms D) (p : data D) (restart : option String.string) (ic : option vec) (junk junk' : vec) (s : ust) : outcome ust :=
  let cs := new_coefs p in
  let rhs := assemble_rhs F cs in
  let* (_, s) := clk_solve c F cs rhs restart ic junk junk' s in
  Ok s.

(** ** Watching the run *)

(** A number of the run: a number or NaN. *)
Inductive dbl := Num (x : R) | NaN.
Definition d2 (f : R -> R -> R) (a b : dbl) : dbl := match a, b with Num x, Num y => Num (f x y) | _, _ => NaN end.
Definition d1 (f : R -> R) (a : dbl) : dbl := match a with Num x => Num (f x) | NaN => NaN end.
(** [fmax] returns the other argument if one is NaN. *)
Definition d_fmax (a b : dbl) : dbl := match a, b with Num x, Num y => Num (Rmax x y) | Num x, NaN => Num x | NaN, y => y end.
(** [a < b]: false if one is NaN *)
Definition d_lt (a b : dbl) : bool := match a, b with Num x, Num y => if Rlt_dec x y then true else false | _, _ => false end.
Definition d_isnan (a : dbl) : bool := match a with NaN => true | Num _ => false end.

(** [Vector::Min] and [Vector::Max] of MFEM on the host: the first entry, replaced by smaller (larger) ones; an infinity, here any
    number, if there is no entry. *)
Definition d_min (v : list dbl) : dbl := match v with [] => Num 0 | x :: l => fold_left (fun m y => if d_lt y m then y else m) l x end.
Definition d_max (v : list dbl) : dbl := match v with [] => Num 0 | x :: l => fold_left (fun m y => if d_lt m y then y else m) l x end.
(** include/unsteady_ns_solver.hpp:117-124 [SanityCheck] *)
Definition sanity_check (v : list dbl) : outcome unit := if d_isnan (d_min v) || d_isnan (d_max v) then Abort else Ok tt.

(** A velocity element: its size and the components of the velocity at its quadrature points. *)
Record velem := VElem { ve_size : R; ve_ux : list dbl; ve_uy : list dbl; ve_uz : list dbl }.
(** src/unsteady_ns_solver.cpp:374-381: one point; [st] is ([cflz], [cflmax]), which outlive the iteration *)
Definition cfl_point (three : bool) (dt hmin : R) (e : velem) (st : dbl * dbl) (i : nat) : outcome (dbl * dbl) :=
  let part u := d1 (fun u => Rabs (dt * u / hmin)) u in
  let* ux := oread (ve_ux e) i in
  let* uy := oread (ve_uy e) i in
  let* cz := (if three then let* uz := oread (ve_uz e) i in Ok (part uz) else Ok (fst st)) in
  let m := d2 Rplus (d2 Rplus (part ux) (part uy)) cz in
  Ok (cz, d_fmax (snd st) m).
(** src/unsteady_ns_solver.cpp:338-387 [ComputeCFL]; a subdomain: the order of its elements as [GetElementOrder(0)] gives it, and
    its elements; [n] is the number of quadrature points of the element *)
Definition compute_cfl (three : bool) (dt : R) (subs : list (R * list velem)) : outcome dbl :=
  let* st := ofold (fun st sub => let (order, es) := (sub : R * list velem) in
    ofold (fun st e => ofor (List.length (ve_ux e)) (cfl_point three dt (ve_size e / order) e) st) es st) subs (Num 0, Num 0) in
  Ok (snd st).

(** ** Initial condition *)

(** [u_ic], [p_ic]: the constant zero or a function of the problem *)
Inductive icoef (D : Type) := IZero | IFun (f : R -> D).
Arguments IZero {D}. Arguments IFun {D}.
(** Live coefficients (by number), the next number, [u_ic] and [p_ic] with their numbers, velocities and pressures of the subdomains *)
Record icst (D : Type) := IcSt { ic_live : list nat; ic_next : nat; ic_u : option (nat * icoef D); ic_p : option (nat * icoef D);
                                 ic_vels : list (option D); ic_ps : list (option D) }.
Arguments IcSt {D}. Arguments ic_live {D}. Arguments ic_next {D}. Arguments ic_u {D}. Arguments ic_p {D}. Arguments ic_vels {D}. Arguments ic_ps {D}.

Definition ic_delete {D} (live : list nat) (p : option (nat * icoef D)) : outcome (list nat) :=
  match p with None => Ok live | Some (a, _) => oguard (existsb (Nat.eqb a) live) (Ok (filter (fun b => negb (b =? a)%nat) live)) end.

(** src/unsteady_ns_solver.cpp:292-329 [SetParameterizedProblem]; [ptr] is [ic_ptr] of the problem; [zero] is the zero field. A
    pointer deleted and not replaced would dangle: both are replaced on each path. *)
Definition set_problem {D} (zero : D) (ptr : list (option (R -> D))) (s : icst D) : outcome (icst D) :=
  let vels := map (fun _ => Some zero) (ic_vels s) in
  let ps := map (fun _ => Some zero) (ic_ps s) in
  let* live := ic_delete (ic_live s) (ic_u s) in
  let* live := ic_delete live (ic_p s) in
  let n := ic_next s in
  let make u p := IcSt (S n :: n :: live) (S (S n)) (Some (n, u)) (Some (S n, p)) vels ps in
  if (List.length ptr <? 2)%nat then Ok (make IZero IZero)
  else
    let* f := oread ptr 0 in
    let* g := oread ptr 1 in
    let pick h := match h with Some h => IFun h | None => IZero end in
    Ok (make (pick f) (pick g)).

(** src/unsteady_ns_solver.cpp:203-210: [ProjectCoefficient] at time zero *)
Definition project_ic {D} (zero : D) (s : icst D) : outcome (icst D) :=
  match ic_u s, ic_p s with
  | Some (a, u), Some (b, p) =>
      oguard (existsb (Nat.eqb a) (ic_live s) && existsb (Nat.eqb b) (ic_live s)) (
      let at0 c := match c with IZero => zero | IFun f => f 0 end in
      Ok (IcSt (ic_live s) (ic_next s) (ic_u s) (ic_p s) (map (fun _ => Some (at0 u)) (ic_vels s)) (map (fun _ => Some (at0 p)) (ic_ps s))))
  | _, _ => Ok s
  end.
(** src/unsteady_ns_solver.cpp:39-54 [~UnsteadyNSSolver]; result: what has leaked *)
Definition ic_destroy {D} (s : icst D) : outcome (list nat) :=
  let* live := ic_delete (ic_live s) (ic_u s) in ic_delete live (ic_p s).
(** A solver of [n] subdomains *)
Definition ic_new {D} (n : nat) : icst D := IcSt [] 0 None None (repeat None n) (repeat None n).
