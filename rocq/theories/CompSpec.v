(** Specification vocabulary for component-wise configurations. *)
From Coq Require Import ZArith QArith Qabs List Bool String Permutation Lia.
From Verif Require Import Outcome TopoModel TopoSpec CompModel.
Import ListNotations.
Local Open Scope nat_scope.
Local Open Scope list_scope.

(** Number of occurrences of [t] among the first [m] elements. *)
Definition occurrences (l : list Z) (t : Z) (m : nat) : nat := count_occ Z.eq_dec (firstn m l) t.

(** An assignment (m, a, g): the boundary [a] of the component of subdomain [m] has global attribute [g]. *)
Definition assignment := (Z * Z * Z)%type.

(** [g] is what the last assignment for (m, a) says. *)
Definition assigned (l : list assignment) (m a g : Z) : Prop :=
  exists pre post, l = pre ++ (m, a, g) :: post /\ forall g', ~ In (m, a, g') post.

(** The assignments of a configuration: boundary lines, then both sides of each port in order. *)
Definition boundary_assignments (rows : list boundary_row) : list assignment :=
  map (fun r => (snd (fst r), snd r, fst (fst r))) rows.
Definition port_assignments (ports : list gport) : list assignment :=
  flat_map (fun p => [(gp_mesh1 p, gp_attr1 p, gp_attr p); (gp_mesh2 p, gp_attr2 p, gp_attr p)]) ports.

(** A port does what its row says. *)
Definition port_of_row (r : port_row) (p : gport) : Prop :=
  gp_mesh1 p = pr_mesh1 r /\ gp_mesh2 p = pr_mesh2 r /\ gp_attr1 p = pr_attr1 r /\ gp_attr2 p = pr_attr2 r.

(** Subdomain [m] exists and is an instance of component [k]. *)
Definition instance_of (comps : list comp) (mesh_types : list Z) (m : Z) (k : comp) : Prop :=
  (0 <= m)%Z /\ exists t, nth_error mesh_types (Z.to_nat m) = Some t /\ (0 <= t)%Z /\
  nth_error comps (Z.to_nat t) = Some k.

(** Boundary [a] of the component of subdomain [m] exists. *)
Definition has_boundary (comps : list comp) (mesh_types : list Z) (m a : Z) : Prop :=
  exists k, instance_of comps mesh_types m k /\ In a (c_attrs k).

(** Two entry lists denote the same map. *)
Definition same_map (m1 m2 : list (Z * Z)) : Prop := forall k, zlookup m1 k = zlookup m2 k.

(** Component [i] has name [s]. *)
Definition named (names : list string) (i : Z) (s : string) : Prop :=
  (0 <= i)%Z /\ nth_error names (Z.to_nat i) = Some s.

(** Points closer than [thr] in every coordinate. *)
Definition within (dim : nat) (thr : Q) (p q : nat -> Q) : Prop :=
  forall d, d < dim -> (Qabs (p d - q d) < thr)%Q.

(** Points at least [gap] apart in some coordinate. *)
Definition apart (dim : nat) (gap : Q) (p q : nat -> Q) : Prop :=
  exists d, d < dim /\ (gap <= Qabs (p d - q d))%Q.

(** Boundary element number [b] of [l] has attribute [a]. *)
Definition elem_with (l : list belem) (a : Z) (b : nat) : Prop :=
  exists e, nth_error l b = Some e /\ e_attr e = a.

(** [v] is a vertex of the part of the boundary with attribute [a]. *)
Definition port_vertex (l : list belem) (a : Z) (v : Z) : Prop :=
  exists e, In e l /\ e_attr e = a /\ In v (e_vtx e).

(** What a list of sources says about ports, in order: records of files and descriptions. *)
Definition definition := (port_rec + string * outcome port_data)%type.
Definition def_name (d : definition) : string := match d with inl r => rec_name r | inr (n, _) => n end.
Definition definitions (sources : list port_source) : list definition :=
  flat_map (fun s => match s with
                     | FromFile f => map inl f
                     | FromInput n b => [inr (n, b)]
                     end) sources.
Definition first_definition (l : list definition) (n : string) (d : definition) : Prop :=
  exists pre post, l = pre ++ d :: post /\ def_name d = n /\ ~ In n (map def_name pre).

(** The port data a definition stands for; [cn] says which components are known. *)
Definition gives (cn : list (string * Z)) (d : definition) (p : port_data) : Prop :=
  match d with
  | inl r => pd_attr1 p = rec_attr1 r /\ pd_attr2 p = rec_attr2 r /\
             pd_be p = combine (rec_be1 r) (rec_be2 r) /\
             List.length (rec_be1 r) = List.length (rec_be2 r) /\
             (forall i, slookup cn (rec_comp1 r) = Some i -> pd_comp1 p = i) /\
             (forall i, slookup cn (rec_comp2 r) = Some i -> pd_comp2 p = i)
  | inr (_, o) => o = Ok p
  end.

(** A one-to-one correspondence [f] of the port's vertices (component 1 to component 2) within tolerance,
    under which the boundary elements of the port correspond too. *)
Definition port_match (dim : nat) (thr : Q) (l1 l2 : list belem) (a1 a2 : Z) (x1 x2 : coords) (f : Z -> Z) : Prop :=
  (exists b, elem_with l1 a1 b) /\
  (forall w, port_vertex l1 a1 w -> port_vertex l2 a2 (f w) /\ within dim thr (x1 w) (x2 (f w))) /\
  (forall w w', port_vertex l1 a1 w -> port_vertex l1 a1 w' -> f w = f w' -> w = w') /\
  (forall v, port_vertex l2 a2 v -> exists w, port_vertex l1 a1 w /\ f w = v) /\
  (exists n, (forall e, In e l1 -> e_attr e = a1 -> List.length (e_vtx e) = n) /\
             (forall e, In e l2 -> e_attr e = a2 -> List.length (e_vtx e) = n)) /\
  List.length (filter (fun e => Z.eqb (e_attr e) a1) l1) = List.length (filter (fun e => Z.eqb (e_attr e) a2) l2) /\
  (forall e2, In e2 l2 -> e_attr e2 = a2 ->
     exists e1, In e1 l1 /\ e_attr e1 = a1 /\ Permutation (map f (e_vtx e1)) (e_vtx e2)).
