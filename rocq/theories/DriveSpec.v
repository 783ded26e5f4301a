(** What the drivers should do, stated without the model's stages. *)
From Coq Require Import List Bool String Reals.
From Verif Require Import Outcome DriveModel.
Import ListNotations.
Open Scope string_scope.
Open Scope list_scope.

(** Configurations with a complete path from samples to a reduced run. *)
Definition can_run (c : config) : Prop :=
  c_rom c = true /\
  (c_level c <> LNone -> c_prefix c <> None) /\
  (c_level c = LComponent -> c_topo c = Component) /\
  match c_phys c with
  | Poisson | Stokes | LinElast => True
  | AdvDiff => c_level c <> LComponent
  | SteadyNS => (c_nl c = HTensor /\ c_oper c = OBase) \/ (c_nl c = HEqp /\ c_level c = LComponent)
  | UnsteadyNS => c_nl c = HEqp /\ c_level c = LComponent /\ c_oper c = OLF /\ c_bdf c = 1 /\ c_sep c = true /\
                  c_by_variable c = true
  end.

(** The files that the stages hand to each other. *)
Definition stage_files (c : config) : list string :=
  [basis_file c; sup_file c; operator_file c; tensor_file c; eqp_file c].

(** The same configuration run without reduced model, and without comparison. *)
Definition full_order (c : config) : config :=
  mkconfig (c_phys c) (c_topo c) (c_oper c) (c_bdf c) false (c_sep c) (c_level c) (c_prefix c) (c_nl c) (c_by_variable c)
           (c_basis c) (c_restart c) None (c_compare c) (c_fom_file c) (c_save_reduced c) (c_save_solution c).
Definition without_comparison (c : config) : config :=
  mkconfig (c_phys c) (c_topo c) (c_oper c) (c_bdf c) (c_rom c) (c_sep c) (c_level c) (c_prefix c) (c_nl c)
           (c_by_variable c) (c_basis c) (c_restart c) (c_save_system c) false (c_fom_file c) (c_save_reduced c)
           (c_save_solution c).

Section Answers.
  Context {Par Vec Oper Samp Bas Sup Lin Ten Eqp RMat NlT NlE Red : Type}.
  Notation numerics := (@numerics Par Vec Oper Samp Bas Sup Lin Ten Eqp RMat NlT NlE Red).
  Notation disk := (@disk Vec Bas Sup Lin Ten Eqp RMat NlT Red).
  Context (num : numerics).

  (** A solution file that the stages do not overwrite. *)
  Definition given (c : config) (d : disk) (x : string) (u : Vec) : Prop :=
    d x = Some (FSol u) /\ ~ In x (stage_files c).
  (** The state to start from. *)
  Definition starts_from (c : config) (d : disk) (u : option Vec) : Prop :=
    match c_restart c with
    | Some x => if nonlinear (c_phys c) then exists v, u = Some v /\ given c d x v else u = None
    | None => u = None
    end.
  (** The comparison asked for is possible. *)
  Definition comparable (c : config) (d : disk) : Prop :=
    c_compare c = true ->
    (forall x, c_fom_file c = Some x ->
       (exists u, given c d x u) /\
       forall s, c_save_system c = Some s -> x <> (s ++ "_rhs.txt")%string /\ x <> (s ++ "_sol.txt")%string) /\
    (c_fom_file c = None -> nonlinear (c_phys c) = true -> forall x s, c_restart c = Some x -> c_save_system c = Some s ->
       x <> (s ++ "_rhs.txt")%string /\ x <> (s ++ "_sol.txt")%string) /\
    (c_save_reduced c = true -> c_sep c = true \/ num_var (c_phys c) = 1).

  (** Forms with their boundary terms, once. *)
  Definition complete (p : Par) : forms Par := mkforms p 1.

  (** The trained basis. *)
  Definition trained (c : config) (x : Samp) : Bas :=
    let b := basis_of num x in if flow (c_phys c) && c_sep c then enrich num b (sup_of num b) else b.
  (** The reduced matrix: from the elements or the operator of the building stage, or projected in the run. *)
  Definition reduced_matrix (c : config) (b : Bas) (pb pr : Par) : RMat :=
    match c_level c with
    | LComponent => mat_of_lin num pr b (lin_of num pb b)
    | LGlobal => mat_of_op num b (op_of num (complete pb))
    | LNone => mat_of_op num b (op_of num (complete pr))
    end.
  Definition reduced_tensor (c : config) (b : Bas) : NlT :=
    match c_level c with LComponent => ten_sub num (ten_of num b) | _ => ten_glob num b end.
  (** The reduced solution. *)
  Definition reduced_answer (c : config) (x : Samp) (pb pr : Par) (u0 : option Vec) : Red :=
    let b := trained c x in
    let m := reduced_matrix c b pb pr in
    let r := proj num b (rhs_of num (complete pr)) in
    let guess := match u0 with Some u => proj num b u | None => random_guess num end in
    match c_phys c with
    | UnsteadyNS => march num pr b m (eqp_sub num pr b (eqp_of num b x)) r u0
    | SteadyNS =>
        match c_nl c with
        | HTensor => solve_ten num m (reduced_tensor c b) r guess
        | _ => solve_eqp num m (eqp_sub num pr b (eqp_of num b x)) r guess
        end
    | _ => solve_lin num m r (zero_guess num)
    end.

  (** Two disks that agree on some files. *)
  Definition agree (l : list string) (d d' : disk) : Prop := forall x, In x l -> d x = d' x.
  (** The files that a run reads. *)
  Definition run_inputs (c : config) : list string :=
    (if c_rom c then
       basis_file c :: (if flow (c_phys c) && c_sep c then [sup_file c] else []) ++
       match c_level c with
       | LNone => []
       | l => operator_file c :: (if nonlinear (c_phys c) then
                match c_nl c, l with HTensor, _ => [tensor_file c] | HEqp, LComponent => [eqp_file c] | _, _ => [] end else [])
       end
     else []) ++
    (if nonlinear (c_phys c) then match c_restart c with Some x => [x] | None => [] end else []).
End Answers.
