(** What a global configuration file stores. *)
From Coq Require Import ZArith QArith Reals List Bool String Ascii.
From Verif Require Import Outcome ConfigModel CompModel CompSpec HdfModel HdfSpec CfgfModel.
Import ListNotations.
Open Scope nat_scope.
Open Scope list_scope.

(** The numbers of a place and of a port, in the order of the file *)
Definition place_at (c : mesh_config) (d : nat) : option R := nth_error [mc_t0 c; mc_t1 c; mc_t2 c; mc_r0 c; mc_r1 c; mc_r2 c] d.
Definition row_at (r : port_row) (d : nat) : option Z := nth_error [pr_mesh1 r; pr_mesh2 r; pr_attr1 r; pr_attr2 r; pr_type r] d.

(** The data set [name] is a table with a row for each of [items] and [w] columns, whose first [k] are those of the item. *)
Definition has_table {X T} (pick : hdata R -> option (list T)) (g : hgroup R) (name : string) (k : nat) (item : X -> nat -> option T) (items : list X) (w : nat) : Prop :=
  exists data l, find_name (links g) name = Some (Dset [List.length items; w] data) /\ pick data = Some l /\ List.length l = List.length items * w /\
    forall m x d, nth_error items m = Some x -> d < k -> d < w -> stored l [List.length items; w] [m; d] = item x d.
Definition doubles (d : hdata R) : option (list R) := match d with HDbl l => Some l | _ => None end.
Definition ints (d : hdata R) : option (list Z) := match d with HInt l => Some l | _ => None end.

(** Names are under the attributes "0", "1", ..., and their number is under [key]. *)
Definition has_names (g : sgroup) (key : string) (names : list string) : Prop :=
  find_name (attrs (sg_h g)) key = Some (Z.of_nat (List.length names)) /\
  forall c s, nth_error names c = Some s -> find_name (sg_str g) (index_key c) = Some s.

(** The components and subdomains; the table of places has [w] columns. *)
Definition stores_components (f : gfile) (w : nat) (names : list string) (types : list Z) (places : list mesh_config) : Prop :=
  exists g, gf_comp f = Some g /\ has_names g "number_of_components" names /\
    find_name (links (sg_h g)) "meshes" = Some (Dset [List.length types] (HInt types)) /\
    has_table doubles (sg_h g) "configuration" 6 place_at places w.

(** The description of a port *)
Definition stores_dict (p : leaf) (d : pdict) : Prop :=
  find_name (lf_str p) "comp1" = Some (d_comp1 d) /\ find_name (lf_str p) "comp2" = Some (d_comp2 d) /\
  find_name (attrs (lf_h p)) "attr1" = Some (d_attr1 d) /\ find_name (attrs (lf_h p)) "attr2" = Some (d_attr2 d) /\
  find_name (links (lf_h p)) "comp2_configuration" = Some (Dset [List.length (d_conf d)] (HDbl (d_conf d))).

(** The reference ports, some of which are described, and the ports; the table of ports has [w] columns. *)
Definition stores_ports (f : gfile) (w : nat) (refs : list (string * option pdict)) (rows : list port_row) : Prop :=
  exists g, gf_port f = Some g /\ has_names g "number_of_references" (map fst refs) /\
    (forall s o, In (s, o) refs ->
       match o with
       | Some d => d_name d = s /\ exists p, find_name (sg_sub g) s = Some p /\ stores_dict p d
       | None => ~ In s (map fst (sg_sub g)) /\ ~ In s (map fst (links (sg_h g)))
       end) /\
    has_table ints (sg_h g) "interface" 5 row_at rows w.
