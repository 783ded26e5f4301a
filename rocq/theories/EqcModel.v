(** Model of the file with the positions of the quadrature points of a trained rule (classes [ROMNonlinearForm] and [SteadyNSSolver],
    [PrintEQPCoords]).  Definitions only.

    Simplifications: real numbers; the mapping of an element is a function of the element and of the point of its rule, of [dim] values.
    The file is its root group. *)
From Coq Require Import ZArith List Bool String Ascii Reals.
From Verif Require Import Outcome LaBase HdfModel.
Import ListNotations.
Open Scope list_scope.

(** A domain integrator of a form: include/hyperreduction_integ.hpp [GetIntegrationRule] (its number of points, if one is set), and
    [dnfi_sample] (the samples of its trained rule, if there is one). *)
Record qinteg := QInteg { qi_rule : option nat; qi_samples : option (list (sinfo R)) }.

(** The form of a component: its space ([q_nel] elements, [q_pos]: [T->Transform] of a point of an element) and domain integrators. *)
Record qform := QForm { q_nel : nat; q_pos : Z -> Z -> list R; q_dnfi : list qinteg }.

(** MFEM: [Transform(ip, transip)] sets the first [dim] entries of [x]; the vector keeps the memory [x]. *)
Definition transform (dim : nat) (p x : list R) : list R := firstn dim p ++ skipn dim x.

(** MFEM: [SetRow(i, row)]: all columns, from the memory of [row]. *)
Definition set_row (h w : nat) (m : list R) (i : nat) (row : list R) : outcome (list R) :=
  ofor w (fun m j => let* v := oread row j in owrite m (i + j * h) v) m.

(** src/rom_nonlinearform.cpp:1534-1549: the loop over the samples; [stk i]: the memory of [double x[3]] at the [i]-th pass. *)
Definition coords_matrix (dim : nat) (f : qform) (np : nat) (stk : nat -> list R) (s : list (sinfo R)) : outcome (list R) :=
  ofor (List.length s) (fun m i =>
    let* e := oread s i in
    oguard ((0 <=? si_el e)%Z && (si_el e <? Z.of_nat (q_nel f))%Z)
      (oguard ((0 <=? si_qp e)%Z && (si_qp e <? Z.of_nat np)%Z)
        (set_row (List.length s) 3 m i (transform dim (q_pos f (si_el e) (si_qp e)) (stk i)))))
    (repeat 0%R (List.length s * 3)).

(** src/rom_nonlinearform.cpp:1521-1562 [SaveDomainEQPCoords] *)
Definition save_domain_coords (dim : nat) (f : qform) (stk : nat -> list R) (k : Z) (g : hgroup R) (name : string) : outcome (hgroup R) :=
  if (List.length (q_dnfi f) =? 0)%nat then Ok g
  else oassert ((0 <=? k)%Z && (k <? Z.of_nat (List.length (q_dnfi f)))%Z)
    (let* q := oread (q_dnfi f) (Z.to_nat k) in
     match qi_rule q, qi_samples q with
     | Some np, Some s =>
         let* m := coords_matrix dim f np stk s in
         let* grp := write_dense empty_group "coords" {| dm_h := List.length s; dm_w := 3; dm_data := m |} in
         h5_create g name (Grp (attrs grp) (links grp))
     | _, _ => Abort
     end).

(** src/steady_ns_solver.cpp:1452-1464: the loop over the components, given by their names and forms; [c]: the current component *)
Fixpoint save_components (dim : nat) (lf full_dg : bool) (stk : nat -> nat -> list R) (c : nat) (l : list (string * option qform)) (g : hgroup R) : outcome (hgroup R) :=
  match l with
  | [] => Ok g
  | (name, f) :: l =>
      match f with
      | None => Abort
      | Some f =>
          let* g := save_domain_coords dim f (stk c) 0 g (name ++ "_integ0") in
          if lf then oassert (negb full_dg) (save_components dim lf full_dg stk (S c) l g)
          else save_components dim lf full_dg stk (S c) l g
      end
  end.

(** src/steady_ns_solver.cpp:1426-1474 [SaveEQPCoords]: the file, if this rank writes one; [component]: the mode of the topology;
    [names]: of the components of the topology; [eqps]: [comp_eqps] *)
Definition save_coords (dim rank : nat) (component lf full_dg : bool) (stk : nat -> nat -> list R) (names : list string) (eqps : list (option qform)) : outcome (option (hgroup R)) :=
  oassert component
    (if (rank =? 0)%nat then
       oassert (List.length eqps =? List.length names)%nat
         (let* g := h5_create_attr empty_group "number_of_components" (Z.of_nat (List.length names)) in
          let* g := save_components dim lf full_dg stk 0 (combine names eqps) g in
          let* file := h5_create empty_group "components" (Grp (attrs g) (links g)) in
          Ok (Some file))
     else Ok None).

(** src/main_workflow.cpp:705-753 [PrintEQPCoords], for a flow solver if [flow], else include/multiblock_solver.hpp:263; [load]: the
    forms with the rules of the file of the operators *)
Definition print_coords (use_rom nonlinear comp_level submesh eqp flow : bool) (load : outcome (list (option qform)))
    (dim rank : nat) (component lf full_dg : bool) (stk : nat -> nat -> list R) (names : list string) : outcome (option (hgroup R)) :=
  oassert use_rom
    (if negb nonlinear then Ok None
     else oassert comp_level (oassert (negb submesh) (oassert eqp
       (let* eqps := load in
        if flow then save_coords dim rank component lf full_dg stk names eqps else Ok None)))).
