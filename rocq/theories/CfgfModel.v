(** Model of the reading of the global configuration file of a component-wise problem (class [ComponentTopologyHandler]), and of the
    construction of a port from its description.  Definitions only.

    Simplifications: strings are stored faithfully (see CompModel.v); a description goes through a YAML node unchanged; the groups are those
    the reader opens; [int] overflow is not modelled. *)
From Coq Require Import ZArith QArith Reals List Bool String Ascii.
From Verif Require Import Outcome ConfigModel TopoModel CompModel HdfModel.
Import ListNotations.
Open Scope nat_scope.
Open Scope list_scope.

(** A group with string attributes, without and with subgroups. *)
Record leaf := Leaf { lf_h : hgroup R; lf_str : list (string * string) }.
Record sgroup := SGroup { sg_h : hgroup R; sg_str : list (string * string); sg_sub : list (string * leaf) }.
(** The groups "components" and "ports" of a file *)
Record gfile := GFile { gf_comp : option sgroup; gf_port : option sgroup }.

(** src/hdf5_utils.cpp:48-68 [ReadAttribute] for strings *)
Definition str_attr (l : list (string * string)) (name : string) : outcome string :=
  match find_name l name with Some s => Ok s | None => Abort end.

(** src/component_topology_handler.cpp:214-220, 280-283: the names under the attributes "0", "1", ...; a negative number is refused by
    [std::vector::resize] *)
Definition read_names (n : Z) (l : list (string * string)) : outcome (list string) :=
  oassert (0 <=? n)%Z (omap (fun c => str_attr l (index_key c)) (seq 0 (Z.to_nat n))).

(** MFEM: [GetRow(m)[d]]: no check against the number of columns *)
Definition row_entry {T} (a : array2d T) (m d : nat) : outcome T := oread (a2_data a) (m * a2_nc a + d).

(** src/component_topology_handler.cpp:242-251: a row of "configuration" *)
Definition read_place (a : array2d R) (m : nat) : outcome mesh_config :=
  let* t0 := row_entry a m 0 in let* r0 := row_entry a m 3 in
  let* t1 := row_entry a m 1 in let* r1 := row_entry a m 4 in
  let* t2 := row_entry a m 2 in let* r2 := row_entry a m 5 in
  Ok (MeshConfig t0 t1 t2 r0 r1 r2).

(** What is known of the components and subdomains: names, type, place and number within the type of each subdomain, number of subdomains of
    each type *)
Record compconf := CompConf { cc_names : list string; cc_types : list Z; cc_places : list mesh_config; cc_idx : list nat; cc_count : list nat }.

(** src/component_topology_handler.cpp:199-259 [ReadComponentsFromFile] *)
Definition read_components (f : gfile) : outcome compconf :=
  match gf_comp f with
  | None => Abort
  | Some g =>
      let* n := h5_read_attr (sg_h g) "number_of_components" in
      let* names := read_names n (sg_str g) in
      let* types := read_array e_int (sg_h g) "meshes" in
      let* a := read_array2d e_dbl (sg_h g) "configuration" in
      oassert (List.length types =? a2_nr a)
        (let* (idx, cnt) := count_instances (List.length names) types in
         let* places := omap (read_place a) (seq 0 (List.length types)) in
         Ok (CompConf names types places idx cnt))
  end.

(** The description of a reference port *)
Record pdict := PDict { d_name : string; d_comp1 : string; d_comp2 : string; d_attr1 : Z; d_attr2 : Z; d_conf : list R }.

(** src/component_topology_handler.cpp:347-380 [ReadPortDict] *)
Definition read_dict (g : sgroup) (name : string) : outcome pdict :=
  match find_name (sg_sub g) name with
  | None => Abort
  | Some p =>
      let* c1 := str_attr (lf_str p) "comp1" in
      let* c2 := str_attr (lf_str p) "comp2" in
      let* a1 := h5_read_attr (lf_h p) "attr1" in
      let* a2 := h5_read_attr (lf_h p) "attr2" in
      let* t := read_array e_dbl (lf_h p) "comp2_configuration" in
      Ok (PDict name c1 c2 a1 a2 t)
  end.

(** src/hdf5_utils.cpp [pathExists]: a subgroup or a data set *)
Definition path_exists (g : sgroup) (name : string) : bool :=
  match find_name (sg_sub g) name, find_name (links (sg_h g)) name with None, None => false | _, _ => true end.

(** src/component_topology_handler.cpp:299-307: a row of "interface" *)
Definition read_row (a : array2d Z) (p : nat) : outcome port_row :=
  let* m1 := row_entry a p 0 in let* m2 := row_entry a p 1 in
  let* a1 := row_entry a p 2 in let* a2 := row_entry a p 3 in
  let* t := row_entry a p 4 in
  Ok (PortRow m1 m2 a1 a2 t).

(** src/component_topology_handler.cpp:261-314: the part of [ReadPortsFromFile] that reads: the reference ports with their descriptions,
    and the rows of the ports *)
Definition read_port_lists (f : gfile) : outcome (list string * list (option pdict) * list port_row) :=
  match gf_port f with
  | None => Abort
  | Some g =>
      let* n := h5_read_attr (sg_h g) "number_of_references" in
      let* names := read_names n (sg_str g) in
      let* dicts := omap (fun s => if path_exists g s then let* d := read_dict g s in Ok (Some d) else Ok None) names in
      let* rows := (if (n =? 0)%Z then Ok []
                    else let* a := read_array2d e_int (sg_h g) "interface" in omap (read_row a) (seq 0 (a2_nr a))) in
      Ok (names, dicts, rows)
  end.

(** A component mesh: its boundary elements and vertices *)
Record cmesh := CMesh { cm_elems : list belem; cm_x : coords }.

(** src/component_topology_handler.cpp:755-791 with 787-923: the port of a description; [names]: of the components; [tf]: the vertices of a
    component after a transformation *)
Definition build_dict (dim : nat) (thr : Q) (names : list string) (comps : list cmesh) (tf : mesh_config -> cmesh -> coords) (d : pdict) : outcome port_data :=
  oassert (0 <? List.length names)
  (oassert (List.length comps =? List.length names)
   match slookup (name_map names) (d_comp1 d), slookup (name_map names) (d_comp2 d) with
   | Some i1, Some i2 =>
       let* k1 := zread comps i1 in
       let* k2 := zread comps i2 in
       match d_conf d with
       | [t0; t1; t2; r0; r1; r2] =>
           build_port dim thr i1 i2 (d_attr1 d) (d_attr2 d) (cm_elems k1) (cm_elems k2) (cm_x k1) (tf (MeshConfig t0 t1 t2 r0 r1 r2) k2)
       | _ => Abort
       end
   | _, _ => Abort
   end).
