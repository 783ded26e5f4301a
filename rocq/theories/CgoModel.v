(** Model of the nonlinear conjugate gradient minimization of the ROM (class [CGOptimizer]); its line search is [LinalgModel.brent].

    Simplifications: real numbers. What is not a number is [None]: dividing by zero makes a step or a direction [None], and the line
    search with such a step or direction is [UB], because no trial value is then larger than another, so the search runs to the end of
    its record and beyond (lines 827-843). An operator is a function, with the product by its transposed gradient. *)
From Coq Require Import Reals List Bool Lia Arith ZArith.
From Verif Require Import Outcome LaBase LinalgModel.
Import ListNotations.
Local Open Scope list_scope.
Local Open Scope R_scope.

(** [golden_ratio], [ib], [N_mnbrak], [N_para] (include/linalg_utils.hpp:203-209); [stop] and [propose] as in [brent] *)
Record cgcfg := CgCfg { cg_golden : R; cg_ib : R; cg_nb : nat; cg_np : nat; cg_fuel : nat;
                        cg_stop : R * R * R * R * R * R -> bool; cg_propose : R * R * R * R * R * R -> R }.
(** [height], [Mult], [GetGradient(sol).MultTranspose(r)] of the operator *)
Record cgop := CgOp { op_m : nat; op_mult : vec -> vec; op_gradt : vec -> vec -> vec }.

(** src/linalg_utils.cpp:783-790 [Objective] *)
Definition objective (o : cgop) (rhs sol : vec) : R :=
  let resvec := vadd (op_mult o sol) (-1) rhs in dot (op_m o) resvec resvec.
(** src/linalg_utils.cpp:792-806 [Gradient] *)
Definition gradient (o : cgop) (rhs sol : vec) : vec :=
  let resvec := vscale 2 (vadd (op_mult o sol) (-1) rhs) in op_gradt o sol resvec.

(** src/linalg_utils.cpp:808-885 [Brent]: the step length and the updated [sol] *)
Definition line_search (c : cgcfg) (o : cgop) (rhs : vec) (xi : option vec) (sol : vec) (b0 : option R) : option (outcome (R * vec)) :=
  match xi, b0 with
  | Some xi, Some b0 =>
      match brent (cg_fuel c) (cg_nb c) (cg_np c) (cg_golden c) (fun t => objective o rhs (vadd sol t xi)) (cg_stop c) (cg_propose c) b0 with
      | None => None
      | Some r => Some (let* b := r in Ok (b, vadd sol b xi))
      end
  | _, _ => Some UB
  end.

(** src/linalg_utils.cpp:934-940: the factor of the previous direction *)
Definition new_gamma (j : nat) (dgg dgg1 gg : R) : option R :=
  if req gg 0 then None
  else
    let gamma := dgg / gg in
    let gamma_FR := dgg1 / gg in
    Some (if (0 <? j)%nat then (if rltb gamma (- gamma_FR) then - gamma_FR else if rltb gamma_FR gamma then gamma_FR else gamma) else gamma).

(** src/linalg_utils.cpp:904-945: the loop from iteration [j], [todo] are left; [n] is the size of [sol]. The result is the
    solution and [converged]. *)
Fixpoint cg_loop (todo j : nat) (c : cgcfg) (o : cgop) (n : nat) (atol rtol res0 : R) (rhs : vec) (sol g : vec) (xi h : option vec) (b0 : option R) (conv : bool)
  : option (outcome (vec * bool)) :=
  match todo with
  | O => Some (Ok (sol, conv))
  | S todo =>
      match line_search c o rhs xi sol b0 with
      | None => None
      | Some Abort => Some Abort
      | Some UB => Some UB
      | Some (Ok (b0, sol)) =>
          let Jmin := objective o rhs sol in
          let xi := gradient o rhs sol in
          let gg := dot n g g in
          let xi1 := vadd xi 1 g in
          let dgg := dot n xi1 xi in
          let dgg1 := dot n xi xi in
          let res := sqrt Jmin in
          if rltb res atol || (negb (req res0 0) && rltb (res / res0) rtol) then Some (Ok (sol, true))
          else
            let gamma := new_gamma j dgg dgg1 gg in
            let g := vscale (-1) xi in
            let xi := match gamma, h with Some gamma, Some h => Some (vadd g gamma h) | _, _ => None end in
            cg_loop todo (S j) c o n atol rtol res0 rhs sol g xi xi (Some b0) conv
      end
  end.

(** src/linalg_utils.cpp:887-948 [Mult]; [conv] is the flag before the call *)
Definition cg_mult (c : cgcfg) (o : cgop) (n : nat) (atol rtol : R) (max_iter : nat) (conv : bool) (rhs sol : vec) : option (outcome (vec * bool)) :=
  let res0 := sqrt (objective o rhs sol) in
  let g := vscale (-1) (gradient o rhs sol) in
  let gg0 := dot n g g in
  let b0 := (if req gg0 0 then None else Some (cg_ib c / sqrt gg0)) in
  cg_loop max_iter 0 c o n atol rtol res0 rhs sol g (Some g) (Some g) b0 conv.
