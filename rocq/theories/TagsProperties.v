(** Property theorems: tags. *)
From Coq Require Import ZArith List String Ascii.
From Verif Require Import TagsModel TagsSpec TagsProofs.
Import ListNotations.
Open Scope string_scope.

(** C07 *)
Theorem C07_port_tag_order : strict_total_order port_tag_lt.
Proof. exact port_tag_lt_sto. Qed.
Print Assumptions C07_port_tag_order.

Theorem C07_basis_tag_order : strict_total_order basis_tag_lt.
Proof. exact basis_tag_lt_sto. Qed.
Print Assumptions C07_basis_tag_order.

(** An ordered map keyed by port tags distinguishes exactly the different tags. *)
Theorem C07_port_tag_map : forall (V : Type) (m : list (port_tag * V)) k v,
  map_find port_tag_lt (map_set port_tag_lt m k v) k = Some v /\
  (forall k1, k1 <> k -> map_find port_tag_lt (map_set port_tag_lt m k v) k1 = map_find port_tag_lt m k1) /\
  (forall k1, map_count port_tag_lt m k1 = true <-> In k1 (map fst m)).
Proof. exact (fun V => map_laws port_tag_lt port_tag_lt_sto). Qed.
Print Assumptions C07_port_tag_map.

Theorem C07_basis_tag_map : forall (V : Type) (m : list (basis_tag * V)) k v,
  map_find basis_tag_lt (map_set basis_tag_lt m k v) k = Some v /\
  (forall k1, k1 <> k -> map_find basis_tag_lt (map_set basis_tag_lt m k v) k1 = map_find basis_tag_lt m k1) /\
  (forall k1, map_count basis_tag_lt m k1 = true <-> In k1 (map fst m)).
Proof. exact (fun V => map_laws basis_tag_lt basis_tag_lt_sto). Qed.
Print Assumptions C07_basis_tag_map.

(** C08, full statement: [forall t1 t2, print_tag t1 = print_tag t2 -> t1 = t2].  It is false: *)
Theorem C08_printed_name_identifies_refuted : exists t1 t2, print_tag t1 = print_tag t2 /\ t1 <> t2.
Proof.
  exists {| comp := "a_vel"; var := "" |}, {| comp := "a"; var := "vel" |}. split; [reflexivity|discriminate].
Qed.
Print Assumptions C08_printed_name_identifies_refuted.

(** C08, what holds: when no component name contains '_' ... *)
Theorem C08_printed_name_identifies_plain_components_partial : forall t1 t2,
  no_char "_"%char (comp t1) -> no_char "_"%char (comp t2) -> print_tag t1 = print_tag t2 -> t1 = t2.
Proof. exact print_inj. Qed.
Print Assumptions C08_printed_name_identifies_plain_components_partial.

(** ... or when, as in any single run, either no basis or every basis is separated by variable, and variable names
    contain no '_'. *)
Theorem C08_printed_name_identifies_one_mode_partial : forall t1 t2,
  (var t1 = "" /\ var t2 = "") \/
  (var t1 <> "" /\ var t2 <> "" /\ no_char "_"%char (var t1) /\ no_char "_"%char (var t2)) ->
  print_tag t1 = print_tag t2 -> t1 = t2.
Proof. exact print_inj_vars. Qed.
Print Assumptions C08_printed_name_identifies_one_mode_partial.
