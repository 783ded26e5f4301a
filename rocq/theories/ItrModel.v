(** Model of the training of the quadrature rules of reference ports: src/steady_ns_solver.cpp:1117-1163,
    src/rom_interfaceform.cpp:383-435, 608-701.

    Simplifications: see EqpModel.v and SnapshotModel.v. A snapshot matrix is made of the columns the sample generator holds; its number
    of rows is the length of the first. libROM's solver is a function of the system it is given. The processes share the faces of a
    port as [tn_split] says. Storage that is not initialized comes from [tn_junk]. A rule is its list of samples (who owns it: EqpOwnModel.v). *)
From Coq Require Import Reals List Bool Lia Arith ZArith String.
From Verif Require Import Outcome TagsModel SnapshotModel HdfModel LaBase LinalgModel ItfModel EqpModel EqpItfModel.
Import ListNotations.
Local Open Scope list_scope.
Local Open Scope nat_scope.

(** What training uses: component names, names of the variables, whether bases are separated by variable; [GetRefPortInfo] of the
    reference ports and [GetPortType] of the ports; [comp_basis], [comp_basis_dof_offsets] and the sizes of [comp_fes]; for each integrator
    of the form the weights of its rule ([None] without); the faces of a reference port as an integrator sees them *)
Record tnet := TNet { tn_names : list string; tn_vars : list string; tn_sep : bool; tn_refs : list (nat * nat * Z * Z); tn_types : list nat;
                      tn_bases : list (option dmat); tn_offs : list nat; tn_size : list nat;
                      tn_rules : list (option (list R)); tn_sites : nat -> nat -> list (option isite);
                      tn_split : nat -> list nat; tn_junk : nat -> vec; tn_solve : list rmat -> vec -> vec -> list vec }.

(** src/rom_handler.cpp:246-252: the tags of the reference bases *)
Definition ref_tags (T : tnet) : list basis_tag :=
  if tn_sep T then flat_map (fun c => map (tag_for_component c) (tn_vars T)) (tn_names T)
  else map (fun c => tag_for_component c EmptyString) (tn_names T).
(** src/steady_ns_solver.cpp:1137-1140 *)
Definition ref_index (T : tnet) (c : nat) : nat := if tn_sep T then c * List.length (tn_vars T) else c.

(** libROM [getSnapshotMatrix], then [gather] (src/rom_interfaceform.cpp:401-405): row by row *)
Definition snap_matrix (cols : list (list R)) : rmat :=
  let rows := match cols with [] => 0 | b :: _ => List.length b end in
  RMat rows (List.length cols) false (flat_map (fun k => map (fun b => nth k b 0%R) cols) (seq 0 rows)).

(** src/steady_ns_solver.cpp:1129-1160: the two snapshot matrices and the pairs of columns of reference port [p] *)
Definition port_snaps (T : tnet) (s : sg R) (p : nat) : outcome (rmat * rmat * list (nat * nat)) :=
  let* (c1, c2, a1, a2) := oread (tn_refs T) p in
  let* n1 := oread (tn_names T) c1 in
  let* n2 := oread (tn_names T) c2 in
  let tag := {| Mesh1 := n1; Mesh2 := n2; Attr1 := a1; Attr2 := a2 |} in
  let* t1 := oread (ref_tags T) (ref_index T c1) in
  let* t2 := oread (ref_tags T) (ref_index T c2) in
  let* k1 := look_up_snapshot s t1 in
  let* k2 := (if basis_tag_eqb t1 t2 then Ok k1 else look_up_snapshot s t2) in
  let* pairs := look_up_port s tag in
  Ok (snap_matrix k1, snap_matrix k2, pairs).

(** src/rom_interfaceform.cpp:387-433 (without the solve): the system of integrator [k] at reference port [p], and the number of its
    quadrature points per face *)
Definition port_system (T : tnet) (snap1 snap2 : rmat) (pairs : list (nat * nat)) (p k : nat) : outcome (nat * (list rmat * vec)) :=
  let* (c1, c2, _, _) := oread (tn_refs T) p in
  let* m1 := oread (tn_size T) c1 in
  let* m2 := oread (tn_size T) c2 in
  oassert (m1 <=? rm_r snap1) (
  oassert (m2 <=? rm_r snap2) (
  let* b1 := oread (tn_bases T) c1 in
  let* b2 := oread (tn_bases T) c2 in
  let* o1 := oread (tn_offs T) c1 in
  let* o2 := oread (tn_offs T) c2 in
  match b1, b2 with
  | Some B1, Some B2 =>
      let* rule := oread (tn_rules T) k in
      match rule with
      | None => Abort
      | Some w =>
          let nqe := List.length w in
          let st := tn_sites T k p in
          let split := tn_split T (List.length st) in
          let cols := (dm_w B1 + dm_w B2) * List.length pairs in
          let* sys := setup_system_itf nqe w st B1 B2 o1 o2 m1 m2 snap1 snap2 pairs split
            (fun r => tn_junk T (nth r split 0 * nqe * cols)) (fun r => tn_junk T (nth r split 0 * nqe)) in
          Ok (nqe, sys)
      end
  | _, _ => Abort
  end)).

(** src/rom_interfaceform.cpp:608-701 [TrainEQPForIntegrator] *)
Definition train_integrator (T : tnet) (tol : R) (nqe : nat) (sys : list rmat * vec) : outcome (list (sinfo R)) :=
  let (Gt, rhs) := sys in
  let (lb, ub) := eqp_bounds tol rhs in
  let sol := tn_solve T Gt lb ub in
  solution_samples nqe sol None (tn_junk T (list_sum (map (@List.length R) sol))).

(** Samples of the reference ports and of the ports: [fnfi_ref_sample], [fnfi_sample] *)
Definition rules := (list (option (list (sinfo R))) * list (option (list (sinfo R))))%type.

(** include/rom_interfaceform.hpp:88-108 [UpdateInterFaceIntegratorSampling] *)
Definition update_sampling (T : tnet) (i rp : nat) (l : list (sinfo R)) (st : rules) : outcome rules :=
  let (ref, smp) := st in
  let nref := List.length (tn_refs T) in
  let np := List.length (tn_types T) in
  oassert (i <? List.length (tn_rules T)) (
  oassert (rp <? nref) (
  oassert (List.length ref =? List.length (tn_rules T) * nref) (
  let idx := rp + i * nref in
  let* ref := owrite ref idx (Some l) in
  let* smp := ofor np (fun smp p =>
    let* t := oread (tn_types T) p in
    if t =? rp then let* q := oread ref idx in owrite smp (p + i * np) q else Ok smp) smp in
  Ok (ref, smp)))).

(** src/rom_interfaceform.cpp:383-435 [TrainEQPForRefPort] *)
Definition train_port (T : tnet) (tol : R) (snap1 snap2 : rmat) (pairs : list (nat * nat)) (p : nat) (st : rules) : outcome rules :=
  ofor (List.length (tn_rules T)) (fun st k =>
    let* (nqe, sys) := port_system T snap1 snap2 pairs p k in
    let* l := train_integrator T tol nqe sys in
    update_sampling T k p l st) st.

(** src/steady_ns_solver.cpp:1122-1163: all reference ports *)
Definition train_ports (T : tnet) (tol : R) (s : sg R) (st : rules) : outcome rules :=
  ofor (List.length (tn_refs T)) (fun st p =>
    let* (snap1, snap2, pairs) := port_snaps T s p in
    train_port T tol snap1 snap2 pairs p st) st.

(** ** Evaluation *)

(** The form that is evaluated with these samples: src/rom_interfaceform.cpp:44-62 [SetBasisAtComponent] gives every subdomain the basis of its
    component, [ct] being the components of the subdomains. Simplified: the faces of a port are those of its reference port, that is, placing
    a component in the domain does not change the integrand. *)
Definition net_form (T : tnet) (ct : list nat) (ports : list rport) (smp : list (option (list (sinfo R)))) : iform :=
  IForm (map (option_map (@List.length R)) (tn_rules T)) smp ports
    (fun k q => match nth_error (tn_types T) q with Some t => tn_sites T k t | None => [] end)
    (map (fun c => nth c (tn_bases T) None) ct) (map (fun c => nth c (tn_offs T) 0) ct).
