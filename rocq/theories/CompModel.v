(** Component-wise configurations: subdomains made from reference components, ports, boundaries.

    Modelled: [ComponentTopologyHandler::ReadComponentsFromFile] (numbering), [ReadBoundariesFromFile],
    [ReadPortsFromFile] (attributes and maps), [SetupBdrAttributes], [SetupPorts], [SetupReferencePorts],
    [ReadPortDatasFromFile], [WritePortDataToFile], [BuildPortDataFromInput], the mesh transformations.
    Simplified: a component is its list of boundary attributes and its list of boundary elements
    (attribute and vertices); vertex coordinates are exact rationals and those of component 2 are given
    after the transformation; a port file is a list of records (one per group); open handles, printed
    messages and [int] overflow are not modelled.  String attributes are assumed to be stored faithfully:
    src/hdf5_utils.cpp:48-84 hands the address of a [std::string] to HDF5 as if it were a [char*], which
    works only where the first word of a [std::string] is its data pointer. *)
From Coq Require Import ZArith QArith Qabs Reals List Bool String Lia.
From Verif Require Import Outcome TopoModel.
Import ListNotations.
Local Open Scope nat_scope.
Local Open Scope list_scope.

(** ** Numbering of component instances *)

(** src/component_topology_handler.cpp:230-240: state = ([mesh_comp_idx] so far, [sub_composition]). *)
Definition count_step (st : list nat * list nat) (t : Z) : outcome (list nat * list nat) :=
  let '(idx, cnt) := st in
  let* n := zread cnt t in
  Ok (idx ++ [n], upd cnt (Z.to_nat t) (n + 1)).

Definition count_instances (num_comp : nat) (mesh_types : list Z) : outcome (list nat * list nat) :=
  ofold count_step mesh_types ([], repeat 0 num_comp).

(** ** Boundaries and ports of the global configuration *)

(** A component: [bdr_attributes] and the attribute of each boundary element. *)
Record comp := Comp { c_attrs : list Z; c_elems : list Z }.

(** [components[mesh_types[m]]] *)
Definition comp_of (comps : list comp) (mesh_types : list Z) (m : Z) : outcome comp :=
  let* c := zread mesh_types m in zread comps c.

(** src/component_topology_handler.cpp:600-609: [bdr_c2g] after [SetupMeshes]. *)
Definition init_c2g (comps : list comp) (mesh_types : list Z) : outcome (list (list Z)) :=
  omap (fun c => let* k := zread comps c in Ok (repeat (-1)%Z (List.length (c_attrs k)))) mesh_types.

(** [( *bdr_c2g[m])[components[mesh_types[m]]->bdr_attributes.Find(a)] = g], the index being asserted. *)
Definition set_c2g (comps : list comp) (mesh_types : list Z) (c2g : list (list Z)) (m a g : Z)
  : outcome (list (list Z)) :=
  let* k := comp_of comps mesh_types m in
  match zfind (c_attrs k) a with
  | None => Abort
  | Some i =>
    let* r := zread c2g m in
    let* r' := owrite r i g in
    Ok (upd c2g (Z.to_nat m) r')
  end.

(** src/component_topology_handler.cpp:403-421: rows are (global attribute, mesh, component attribute);
    state = ([bdr_c2g], [bdr_attributes]). *)
Definition boundary_row := (Z * Z * Z)%type.
Definition read_boundary (comps : list comp) (mesh_types : list Z) (st : list (list Z) * list Z)
    (row : boundary_row) : outcome (list (list Z) * list Z) :=
  let '(g, m, a) := row in
  let '(c2g, battrs) := st in
  let* c2g' := set_c2g comps mesh_types c2g m a g in
  Ok (c2g', match zfind battrs g with None => battrs ++ [g] | Some _ => battrs end).

Definition read_boundaries (comps : list comp) (mesh_types : list Z) (c2g : list (list Z))
    (rows : list boundary_row) : outcome (list (list Z) * list Z) :=
  ofold (read_boundary comps mesh_types) rows (c2g, []).

(** A row of the "interface" dataset and a port of the configuration. *)
Record port_row := PortRow { pr_mesh1 : Z; pr_mesh2 : Z; pr_attr1 : Z; pr_attr2 : Z; pr_type : Z }.
Record gport := GPort { gp_attr : Z; gp_mesh1 : Z; gp_mesh2 : Z; gp_attr1 : Z; gp_attr2 : Z }.

(** src/component_topology_handler.cpp:315-327 [attr_offset]. *)
Definition attr_offset (comps : list comp) (battrs : list Z) : outcome Z :=
  let* o := ofold (fun acc k => let* m := zmax (c_attrs k) in Ok (Z.max acc m)) comps 0%Z in
  oassert (0 <? List.length battrs)
    (let* m := zmax battrs in Ok (Z.max o (m + 1) + 1)%Z).

(** src/component_topology_handler.cpp:329-346; state = (ports so far, [bdr_c2g], [attr_offset]).
    [idx1] and [idx2] are looked up and asserted before the two writes. *)
Definition read_port (comps : list comp) (mesh_types : list Z)
    (st : list gport * list (list Z) * Z) (row : port_row) : outcome (list gport * list (list Z) * Z) :=
  let '(ports, c2g, off) := st in
  let* k1 := comp_of comps mesh_types (pr_mesh1 row) in
  let* k2 := comp_of comps mesh_types (pr_mesh2 row) in
  match zfind (c_attrs k1) (pr_attr1 row), zfind (c_attrs k2) (pr_attr2 row) with
  | Some _, Some _ =>
    let* c1 := set_c2g comps mesh_types c2g (pr_mesh1 row) (pr_attr1 row) off in
    let* c2 := set_c2g comps mesh_types c1 (pr_mesh2 row) (pr_attr2 row) off in
    Ok (ports ++ [GPort off (pr_mesh1 row) (pr_mesh2 row) (pr_attr1 row) (pr_attr2 row)], c2, (off + 1)%Z)
  | _, _ => Abort
  end.

Definition read_ports (comps : list comp) (mesh_types : list Z) (c2g : list (list Z)) (battrs : list Z)
    (rows : list port_row) : outcome (list gport * list (list Z)) :=
  let* off := attr_offset comps battrs in
  let* st := ofold (read_port comps mesh_types) rows ([], c2g, off) in
  Ok (fst (fst st), snd (fst st)).

(** src/component_topology_handler.cpp:612-635 [SetupBdrAttributes]: the boundary element attributes of
    subdomain [m] made from component [k], with its row of [bdr_c2g]. *)
Definition elem_attr (k : comp) (row : list Z) (a : Z) : outcome Z :=
  match zfind (c_attrs k) a with
  | None => Abort
  | Some i => let* g := oread row i in oassert (0 <=? g)%Z (Ok g)
  end.

Definition setup_bdr_attributes (comps : list comp) (mesh_types : list Z) (c2g : list (list Z))
  : outcome (list (list Z)) :=
  omap (fun m => let* c := oread mesh_types m in
                 let* k := zread comps c in
                 let* row := oread c2g m in
                 omap (elem_attr k row) (c_elems k))
       (seq 0 (List.length mesh_types)).

(** The constructor, src/component_topology_handler.cpp:52-71, as far as boundary attributes go. *)
Definition configure (comps : list comp) (mesh_types : list Z) (brows : list boundary_row)
    (prows : list port_row) : outcome (list Z * list gport * list (list Z)) :=
  let* c0 := init_c2g comps mesh_types in
  let* (c1, battrs) := read_boundaries comps mesh_types c0 brows in
  let* (ports, c2) := read_ports comps mesh_types c1 battrs prows in
  let* attrs := setup_bdr_attributes comps mesh_types c2 in
  Ok (battrs, ports, attrs).

(** ** Reference ports *)

(** include/component_topology_handler.hpp:79-85 [PortData]; [vtx2to1] as the list of its entries
    (vertex of component 2, vertex of component 1). *)
Record port_data := PortData {
  pd_comp1 : Z; pd_comp2 : Z; pd_attr1 : Z; pd_attr2 : Z;
  pd_vtx : list (Z * Z);
  pd_be : list (Z * Z) }.

(** [std::unordered_map<int,int>]: find, and [m[k] = v]. *)
Fixpoint zlookup (m : list (Z * Z)) (k : Z) : option Z :=
  match m with
  | [] => None
  | (k', v) :: t => if (k' =? k)%Z then Some v else zlookup t k
  end.
Fixpoint zinsert (m : list (Z * Z)) (k v : Z) : list (Z * Z) :=
  match m with
  | [] => [(k, v)]
  | (k', v') :: t => if (k' =? k)%Z then (k, v) :: t else (k', v') :: zinsert t k v
  end.

(** [std::unordered_map<std::string,int>]. *)
Fixpoint slookup (m : list (string * Z)) (k : string) : option Z :=
  match m with
  | [] => None
  | (k', v) :: t => if String.eqb k' k then Some v else slookup t k
  end.
Fixpoint sinsert (m : list (string * Z)) (k : string) (v : Z) : list (string * Z) :=
  match m with
  | [] => [(k, v)]
  | (k', v') :: t => if String.eqb k' k then (k, v) :: t else (k', v') :: sinsert t k v
  end.

(** [m[k]] read as an rvalue: a missing key is inserted with value 0. *)
Definition sget (m : list (string * Z)) (k : string) : Z * list (string * Z) :=
  match slookup m k with
  | Some v => (v, m)
  | None => (0%Z, sinsert m k 0%Z)
  end.

(** src/component_topology_handler.cpp:214-220, 280-286: [name2idx[names[c]] = c] for c in order. *)
Definition name_map (names : list string) : list (string * Z) :=
  fold_left (fun m p => sinsert m (snd p) (Z.of_nat (fst p))) (combine (seq 0 (List.length names)) names) [].

(** A group of a port file. *)
Record port_rec := PortRec {
  rec_name : string; rec_attr1 : Z; rec_attr2 : Z; rec_comp1 : string; rec_comp2 : string;
  rec_vtx1 : list Z; rec_vtx2 : list Z; rec_be1 : list Z; rec_be2 : list Z }.

(** src/component_topology_handler.cpp:523-576 [WritePortDataToFile]; [entries] is the order in which the
    loop over the unordered map meets its entries. *)
Definition write_port_file (comp_names : list string) (port : port_data) (entries : list (Z * Z))
    (name : string) : outcome (list port_rec) :=
  let* n1 := zread comp_names (pd_comp1 port) in
  let* n2 := zread comp_names (pd_comp2 port) in
  Ok [PortRec name (pd_attr1 port) (pd_attr2 port) n1 n2
              (map snd entries) (map fst entries) (map fst (pd_be port)) (map snd (pd_be port))].

(** src/component_topology_handler.cpp:488-517: a record becomes port data. *)
Definition port_of_rec (cn : list (string * Z)) (r : port_rec) : outcome (port_data * list (string * Z)) :=
  let '(c1, cn1) := sget cn (rec_comp1 r) in
  let '(c2, cn2) := sget cn1 (rec_comp2 r) in
  oassert ((0 <=? c1)%Z && (0 <=? c2)%Z)
  (oassert (List.length (rec_vtx1 r) =? List.length (rec_vtx2 r))
  (oassert (List.length (rec_be1 r) =? List.length (rec_be2 r))
    (Ok (PortData c1 c2 (rec_attr1 r) (rec_attr2 r)
           (fold_left (fun m p => zinsert m (fst p) (snd p)) (combine (rec_vtx2 r) (rec_vtx1 r)) [])
           (combine (rec_be1 r) (rec_be2 r)), cn2)))).

(** src/component_topology_handler.cpp:428-521 [ReadPortDatasFromFile]; state = ([ref_ports],
    [comp_name2idx]). *)
Definition pstate := (list (option port_data) * list (string * Z))%type.
Definition read_port_rec (pn : list (string * Z)) (st : pstate) (r : port_rec) : outcome pstate :=
  let '(refs, cn) := st in
  match slookup pn (rec_name r) with
  | None => Ok st
  | Some idx =>
    let* slot := zread refs idx in
    match slot with
    | Some _ => Ok st
    | None => let* (p, cn') := port_of_rec cn r in Ok (upd refs (Z.to_nat idx) (Some p), cn')
    end
  end.

Definition read_port_file (pn : list (string * Z)) (st : pstate) (f : list port_rec) : outcome pstate :=
  oassert (0 <? List.length f) (ofold (read_port_rec pn) f st).

(** ** Building a reference port from two component meshes *)

(** A boundary element: attribute and vertices. *)
Record belem := BElem { e_attr : Z; e_vtx : list Z }.
Definition coords := Z -> nat -> Q.

Definition Qltb (a b : Q) : bool := negb (Qle_bool b a).

(** src/component_topology_handler.cpp:850-859: the loop over the dimensions stops at the first gap that is
    too large. *)
Fixpoint gap_below (x1 x2 : nat -> Q) (thr : Q) (d n : nat) (acc : bool) : bool :=
  match n with
  | O => acc
  | S n' =>
    let m := Qltb (Qabs (x1 d - x2 d)) thr in
    if m then gap_below x1 x2 thr (S d) n' m else m
  end.
Definition vertices_match (dim : nat) (thr : Q) (x1 x2 : nat -> Q) : bool := gap_below x1 x2 thr 0 dim true.

(** src/component_topology_handler.cpp:790-794: boundary elements with the attribute. *)
Definition elems_with (l : list belem) (a : Z) : list nat :=
  filter (fun b => (e_attr (nth b l (BElem 0 [])) =? a)%Z) (seq 0 (List.length l)).
Definition vtx_of (l : list belem) (b : nat) : list Z := e_vtx (nth b l (BElem 0 [])).

(** src/component_topology_handler.cpp:799-815: their vertices, each listed once. *)
Definition collect_vertices (l : list belem) (bs : list nat) : list Z :=
  fold_left (fun acc v => match zfind acc v with None => acc ++ [v] | Some _ => acc end)
            (flat_map (vtx_of l) bs) [].

(** src/component_topology_handler.cpp:843-871: first vertex of component 2 that is still free and close. *)
Fixpoint find_partner (close : Z -> bool) (m : list (Z * Z)) (vtx2 : list Z) : option Z :=
  match vtx2 with
  | [] => None
  | v :: t =>
    match zlookup m v with
    | Some _ => find_partner close m t
    | None => if close v then Some v else find_partner close m t
    end
  end.

Definition match_vertex (dim : nat) (thr : Q) (x1 x2 : coords) (vtx2 : list Z)
    (m : list (Z * Z)) (v1 : Z) : outcome (list (Z * Z)) :=
  match find_partner (fun v2 => vertices_match dim thr (x1 v1) (x2 v2)) m vtx2 with
  | None => Abort
  | Some v2 => Ok (zinsert m v2 v1)
  end.

(** [mfem::Array<int>::Sort] *)
Fixpoint zinsort (a : Z) (l : list Z) : list Z :=
  match l with
  | [] => [a]
  | b :: t => if (a <=? b)%Z then a :: l else b :: zinsort a t
  end.
Definition zsort (l : list Z) : list Z := fold_right zinsort [] l.

Definition zlist_eqb (l1 l2 : list Z) : bool := if list_eq_dec Z.eq_dec l1 l2 then true else false.

(** src/component_topology_handler.cpp:895-918: first boundary element of component 1 with these (sorted)
    vertices; element sizes are asserted equal on the way. *)
Fixpoint find_elem (l1 : list belem) (be1 : list nat) (sorted : list Z) : outcome (option nat) :=
  match be1 with
  | [] => Ok None
  | b :: t =>
    oassert (List.length sorted =? List.length (vtx_of l1 b))
      (if zlist_eqb (zsort (vtx_of l1 b)) sorted then Ok (Some b) else find_elem l1 t sorted)
  end.

(** src/component_topology_handler.cpp:880-919 and the final assertions 921-923 for one row. *)
Definition pair_elem (l1 l2 : list belem) (be1 : list nat) (m : list (Z * Z)) (b2 : nat)
  : outcome (Z * Z) :=
  let* mapped := omap (fun v => match zlookup m v with Some w => Ok w | None => Abort end) (vtx_of l2 b2) in
  let* r := find_elem l1 be1 (zsort mapped) in
  match r with
  | None => Abort
  | Some b1 => Ok (Z.of_nat b1, Z.of_nat b2)
  end.

(** src/component_topology_handler.cpp:787-923 [BuildPortDataFromInput] for given components, attributes and
    transformed coordinates. *)
Definition build_port (dim : nat) (thr : Q) (c1 c2 attr1 attr2 : Z) (l1 l2 : list belem) (x1 x2 : coords)
  : outcome port_data :=
  oassert (existsb (fun b => (e_attr b =? attr1)%Z) l1)
  (oassert (existsb (fun b => (e_attr b =? attr2)%Z) l2)
  (let be1 := elems_with l1 attr1 in
   let be2 := elems_with l2 attr2 in
   oassert (List.length be1 =? List.length be2)
   (let vtx1 := collect_vertices l1 be1 in
    let vtx2 := collect_vertices l2 be2 in
    oassert (List.length vtx1 =? List.length vtx2)
    (let* m := ofold (match_vertex dim thr x1 x2 vtx2) vtx1 [] in
     let* pairs := omap (pair_elem l1 l2 be1 m) be2 in
     Ok (PortData c1 c2 attr1 attr2 m pairs))))).

(** ** Reference ports of a configuration *)

(** A definition of port data: a file (its records), or a description that builds one port. *)
Inductive port_source :=
| FromFile (f : list port_rec)
| FromInput (name : string) (build : outcome port_data).

(** src/component_topology_handler.cpp:745-753: building is skipped for names that are not used and for
    ports that are already set. *)
Definition apply_source (pn : list (string * Z)) (st : pstate) (s : port_source) : outcome pstate :=
  match s with
  | FromFile f => read_port_file pn st f
  | FromInput name build =>
    match slookup pn name with
    | None => Ok st
    | Some idx =>
      let* slot := zread (fst st) idx in
      match slot with
      | Some _ => Ok st
      | None => let* p := build in Ok (upd (fst st) (Z.to_nat idx) (Some p), snd st)
      end
    end
  end.

(** src/component_topology_handler.cpp:160-197 [SetupReferencePorts]: [sources] are the port dictionaries of
    the global configuration followed by the list of the input file. *)
Definition setup_reference_ports (port_names : list string) (cn : list (string * Z))
    (sources : list port_source) : outcome (list port_data) :=
  let pn := name_map port_names in
  let* st := ofold (apply_source pn) sources (repeat None (List.length port_names), cn) in
  omap (fun o => match o with Some p => Ok p | None => Abort end) (fst st).

(** src/component_topology_handler.cpp:720-743 [SetupPorts]: the result is the index of the reference
    interface each port shares. *)
Definition setup_port (mesh_types : list Z) (refs : list port_data) (pt : gport * Z) : outcome Z :=
  let '(p, t) := pt in
  let* r := zread refs t in
  let* t1 := zread mesh_types (gp_mesh1 p) in
  let* t2 := zread mesh_types (gp_mesh2 p) in
  oassert (t1 =? pd_comp1 r)%Z
  (oassert (t2 =? pd_comp2 r)%Z
  (oassert (gp_attr1 p =? pd_attr1 r)%Z
  (oassert (gp_attr2 p =? pd_attr2 r)%Z
  (oassert (negb ((pd_comp1 r =? pd_comp2 r) && (gp_mesh1 p =? gp_mesh2 p))%Z)
    (Ok t))))).

Definition setup_ports (mesh_types : list Z) (refs : list port_data) (ports : list gport) (types : list Z)
  : outcome (list Z) :=
  oassert (List.length types =? List.length ports) (omap (setup_port mesh_types refs) (combine ports types)).

(** ** Transformations (include/component_topology_handler.hpp:20-62), over exact reals *)

Local Open Scope R_scope.

(** [mesh_config::trans], [mesh_config::rotate]. *)
Record mesh_config := MeshConfig { mc_t0 : R; mc_t1 : R; mc_t2 : R; mc_r0 : R; mc_r1 : R; mc_r2 : R }.

Definition transform2d (c : mesh_config) (x : R * R) : R * R :=
  let sint := sin (mc_r0 c) in
  let cost := cos (mc_r0 c) in
  (cost * fst x - sint * snd x + mc_t0 c, sint * fst x + cost * snd x + mc_t1 c).

Definition inverse_transform2d (c : mesh_config) (x : R * R) : R * R :=
  let tmp0 := fst x - mc_t0 c in
  let tmp1 := snd x - mc_t1 c in
  let sint := sin (- mc_r0 c) in
  let cost := cos (- mc_r0 c) in
  (cost * tmp0 - sint * tmp1, sint * tmp0 + cost * tmp1).

Definition transform3d (c : mesh_config) (x : R * R * R) : R * R * R :=
  let '(a, b, d) := x in (a + mc_t0 c, b + mc_t1 c, d + mc_t2 c).

Definition inverse_transform3d (c : mesh_config) (x : R * R * R) : R * R * R :=
  let '(a, b, d) := x in (a - mc_t0 c, b - mc_t1 c, d - mc_t2 c).
