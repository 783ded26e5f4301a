(** Model of basis tags, port tags and ordered maps keyed by them.  Definitions only. *)
From Coq Require Import ZArith List Bool String Ascii NArith.
Import ListNotations.
Open Scope string_scope.

(** [std::string::operator<]: lexicographic comparison of unsigned character codes
    (used by the tag orderings, src/sample_generator.cpp:16-19, include/hdf5_utils.hpp:66-68). *)
Fixpoint str_ltb (a b : string) : bool :=
  match a, b with
  | _, EmptyString => false
  | EmptyString, String _ _ => true
  | String x a', String y b' =>
      if (N_of_ascii x <? N_of_ascii y)%N then true
      else if (N_of_ascii y <? N_of_ascii x)%N then false
      else str_ltb a' b'
  end.

(** include/sample_generator.hpp:23-29 [struct PortTag]. *)
Record port_tag := { Mesh1 : string; Mesh2 : string; Attr1 : Z; Attr2 : Z }.

(** src/sample_generator.cpp:13-25 [operator<(const PortTag&, const PortTag&)]. *)
Definition port_tag_lt (t1 t2 : port_tag) : bool :=
  if negb (String.eqb (Mesh1 t1) (Mesh1 t2)) then str_ltb (Mesh1 t1) (Mesh1 t2)
  else if negb (String.eqb (Mesh2 t1) (Mesh2 t2)) then str_ltb (Mesh2 t1) (Mesh2 t2)
  else if negb (Attr1 t1 =? Attr1 t2)%Z then (Attr1 t1 <? Attr1 t2)%Z
  else if (Attr2 t1 =? Attr2 t2)%Z then false else (Attr2 t1 <? Attr2 t2)%Z.

(** include/hdf5_utils.hpp:38-43 [struct BasisTag]. *)
Record basis_tag := { comp : string; var : string }.

(** include/hdf5_utils.hpp:63-69 [BasisTag::operator<]. *)
Definition basis_tag_lt (t1 t2 : basis_tag) : bool :=
  if String.eqb (comp t1) (comp t2) then str_ltb (var t1) (var t2)
  else str_ltb (comp t1) (comp t2).

(** include/hdf5_utils.hpp:58-61 [BasisTag::operator==]. *)
Definition basis_tag_eqb (t1 t2 : basis_tag) : bool :=
  String.eqb (comp t1) (comp t2) && String.eqb (var t1) (var t2).

(** include/hdf5_utils.hpp:50-56 [BasisTag::print]. *)
Definition print_tag (t : basis_tag) : string :=
  if String.eqb (var t) "" then comp t else comp t ++ ("_" ++ var t).

(** src/rom_handler.cpp:19-27 [GetBasisTagForComponent]; [comp_name] is [GetComponentName(comp_idx)]. *)
Definition tag_for_component (comp_name var_name : string) : basis_tag :=
  {| comp := comp_name; var := var_name |}.

(** [std::map] with comparator [lt]: two keys are the same key exactly when neither is less than the other.
    (used as [port_tag2idx], [basis_tag2idx]: include/sample_generator.hpp:62-69).  Simplified: the balanced
    tree is a list; look-up walks the list. *)
Section OrderedMap.
  Context {K V : Type} (lt : K -> K -> bool).
  Definition equiv (a b : K) : bool := negb (lt a b) && negb (lt b a).
  Fixpoint map_find (m : list (K * V)) (k : K) : option V :=
    match m with
    | [] => None
    | (k', v) :: m' => if equiv k' k then Some v else map_find m' k
    end.
  (** [m[k] = v] *)
  Fixpoint map_set (m : list (K * V)) (k : K) (v : V) : list (K * V) :=
    match m with
    | [] => [(k, v)]
    | (k', v') :: m' => if equiv k' k then (k', v) :: m' else (k', v') :: map_set m' k v
    end.
  (** [m.count(k)] *)
  Definition map_count (m : list (K * V)) (k : K) : bool :=
    match map_find m k with Some _ => true | None => false end.
End OrderedMap.
