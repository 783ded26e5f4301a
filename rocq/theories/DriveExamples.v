(** A symbolic instance of the numerical work: every result is the term saying how it was computed. *)
From Coq Require Import List Bool String Reals.
From Verif Require Import Outcome DriveModel DriveSpec.
Import ListNotations.
Open Scope string_scope.
Open Scope list_scope.

Inductive term := T (name : string) (args : list term).
Fixpoint count (n : nat) : list term := match n with O => [] | S n => T "boundary" [] :: count n end.
Definition form_term (f : forms term) : term := T "forms" (f_par f :: count (f_bdr f)).
Definition opt_term (o : option term) : list term := match o with Some t => [t] | None => [] end.
Definition phys_name (f : physics) : string :=
  match f with Poisson => "poisson" | Stokes => "stokes" | SteadyNS => "steady" | UnsteadyNS => "unsteady" | LinElast => "linelast" | AdvDiff => "advdiff" end.

Definition symbolic : @numerics term term term term term term term term term term term term term := {|
  rhs_of := fun f => T "rhs" [form_term f];
  op_of := fun f => T "op" [form_term f];
  basis_of := fun x => T "basis" [x];
  sup_of := fun b => T "sup" [b];
  enrich := fun b s => T "enrich" [b; s];
  lin_of := fun p b => T "lin" [p; b];
  mat_of_lin := fun p b l => T "assemble" [p; b; l];
  mat_of_op := fun b o => T "project_op" [b; o];
  ten_of := fun b => T "ten" [b];
  ten_sub := fun t => T "ten_sub" [t];
  ten_glob := fun b => T "ten_glob" [b];
  eqp_of := fun b x => T "eqp" [b; x];
  eqp_sub := fun p b e => T "eqp_sub" [p; b; e];
  proj := fun b v => T "proj" [b; v];
  lift := fun b r => T "lift" [b; r];
  zero_guess := T "zero" [];
  random_guess := T "random" [];
  solve_lin := fun m r g => T "solve_lin" [m; r; g];
  solve_ten := fun m t r g => T "solve_ten" [m; t; r; g];
  solve_eqp := fun m e r g => T "solve_eqp" [m; e; r; g];
  march := fun p b m e r u => T "march" ([p; b; m; e; r] ++ opt_term u);
  full_solve := fun f p o r u => T ("full_" ++ phys_name f)%string ([p; o; r] ++ opt_term u);
  rel_error := fun u v => [1%R; 2%R]
|}.

Notation sdisk := (@disk term term term term term term term term term).
Definition empty : sdisk := fun _ => None.

(** A steady flow run, component elements, hyper-reduced convection, one basis per variable, restarted, compared. *)
Definition cfg_steady : config :=
  mkconfig SteadyNS Component OLF 1 true true LComponent (Some "oper") HEqp true "basis" (Some "restart.h5") (Some "sys") true None true (Some "sol.h5").
(** The same with nothing saved by the building stage. *)
Definition cfg_none : config :=
  mkconfig SteadyNS Component OBase 1 true true LNone None HEqp true "basis" None None true None false None.
(** Lax-Friedrichs flux on a mesh split into submeshes. *)
Definition cfg_submesh : config :=
  mkconfig SteadyNS SubMesh OLF 1 true true LGlobal (Some "oper") HTensor true "basis" None None false None false None.
(** A Poisson run at each building level. *)
Definition cfg_poisson (l : level) (t : topology) : config :=
  mkconfig Poisson t OBase 1 true false l (Some "oper") HNone false "basis" None None true (Some "fom.h5") false (Some "sol.h5").
(** An unsteady flow run. *)
Definition cfg_unsteady : config :=
  mkconfig UnsteadyNS Component OLF 1 true true LComponent (Some "oper") HEqp true "basis" None None true None false None.
(** A full-order run asked to save the reduced system. *)
Definition cfg_system : config :=
  mkconfig Poisson Component OBase 1 false false LNone None HNone false "basis" None (Some "sys") false None false None.
(** A flow run with one basis for both variables, asked for the reduced full-order solution. *)
Definition cfg_unified : config :=
  mkconfig Stokes Component OBase 1 true false LComponent (Some "oper") HNone false "basis" None None true None true None.

Definition with_file (d : sdisk) (x : string) (u : term) : sdisk := write d x (FSol u).
Definition disk0 : sdisk := with_file (with_file empty "restart.h5" (T "state" [])) "fom.h5" (T "fom" []).
Definition samples : term := T "samples" [].
Definition p_build : term := T "p_build" [].
Definition p_run : term := T "p_run" [].

(** What the steady run computes, spelled out. *)
Definition steady_basis : term := let b := T "basis" [samples] in T "enrich" [b; T "sup" [b]].
Definition steady_solution : term :=
  T "lift" [steady_basis;
    T "solve_eqp" [T "assemble" [p_run; steady_basis; T "lin" [p_build; steady_basis]];
                   T "eqp_sub" [p_run; steady_basis; T "eqp" [steady_basis; samples]];
                   T "proj" [steady_basis; T "rhs" [T "forms" [p_run; T "boundary" []]]];
                   T "proj" [steady_basis; T "state" []]]].
Example steady_runs : (let* r := pipeline symbolic cfg_steady samples p_build p_run "out.h5" (fun n => INR n) disk0 in Ok (r_solution r)) = Ok steady_solution.
Proof. vm_compute. reflexivity. Qed.
Example steady_can : can_run cfg_steady.
Proof. repeat split; try discriminate. right. split; reflexivity. Qed.
Example steady_names : NoDup (stage_files cfg_steady).
Proof. repeat constructor; cbn; intuition discriminate. Qed.
Example steady_starts : starts_from cfg_steady disk0 (Some (T "state" [])).
Proof. cbn. exists (T "state" []). split; [reflexivity|]. split; [reflexivity|]. cbn. intuition discriminate. Qed.
Example steady_comparable : comparable cfg_steady disk0.
Proof.
  intros _. split; [discriminate|]. split; [|intros _; left; reflexivity]. intros _ _ x s E1 E2. injection E1 as <-. injection E2 as <-. split; discriminate.
Qed.
Example unsteady_can : can_run cfg_unsteady.
Proof. repeat split; discriminate. Qed.
Example poisson_can t : can_run (cfg_poisson LGlobal t).
Proof. repeat split; discriminate. Qed.

(** The same flow at full order, restarted. *)
Definition cfg_full : config :=
  mkconfig SteadyNS Component OLF 1 false true LNone None HNone true "basis" (Some "restart.h5") None false None false (Some "sol.h5").
Definition full_solution : term :=
  let f := T "forms" [p_run; T "boundary" []] in T "full_steady" [p_run; T "op" [f]; T "rhs" [f]; T "state" []].
Example full_runs : (let* r := single_run symbolic cfg_full p_run "out.h5" (fun n => INR n) disk0 in Ok (r_solution r)) = Ok full_solution.
Proof. vm_compute. reflexivity. Qed.
