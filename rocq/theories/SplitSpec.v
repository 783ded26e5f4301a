(** Vocabulary for meshes and the subdomains they are split into. *)
From Coq Require Import ZArith List Bool Lia Reals String Sorting.Sorted.
From Verif Require Import Outcome TopoModel LaBase SplitModel.
Import ListNotations.
Local Open Scope nat_scope.

(** Side [l] of element [e] of the mesh runs from vertex [a] to vertex [b]. *)
Definition side (els : list elem) (e l a b : nat) : Prop :=
  exists x, nth_error els e = Some x /\
    (nth_error (el_vert x) l = Some a) /\
    (nth_error (el_vert x) (l + 1) = Some b \/ (l + 1 = List.length (el_vert x) /\ nth_error (el_vert x) 0 = Some b)).

(** Side [l] of element [e] lies on the edge with the ends [a] and [b]. *)
Definition side_on (els : list elem) (e l a b : nat) : Prop := side els e l a b \/ side els e l b a.

Definition has_attr (els : list elem) (e : nat) (z : Z) : Prop := exists x, nth_error els e = Some x /\ el_attr x = z.

(** Triangles and quadrilaterals with positive attributes and different vertices, at most two sides on an edge; boundary
    elements with positive attributes on edges of the mesh. *)
Record mesh_ok (pm : mesh2) : Prop := {
  mo_shape : forall x, In x (m_elems pm) -> List.length (el_vert x) = 3 \/ List.length (el_vert x) = 4;
  mo_distinct : forall x, In x (m_elems pm) -> NoDup (el_vert x);
  mo_attr : forall x, In x (m_elems pm) -> (0 < el_attr x)%Z;
  mo_two : forall a b e1 l1 e2 l2 e3 l3, side_on (m_elems pm) e1 l1 a b -> side_on (m_elems pm) e2 l2 a b -> side_on (m_elems pm) e3 l3 a b ->
    (e1, l1) = (e2, l2) \/ (e2, l2) = (e3, l3) \/ (e1, l1) = (e3, l3);
  mo_bdr : forall a b z, In (a, b, z) (m_bdr pm) -> (0 < z)%Z /\ exists e l, side_on (m_elems pm) e l a b;
  mo_some : m_bdr pm <> [] }.

(** No boundary element on the edge with the ends [a] and [b]. *)
Definition no_bdr (pm : mesh2) (a b : nat) : Prop := forall z, ~ In (a, b, z) (m_bdr pm) /\ ~ In (b, a, z) (m_bdr pm).

(** The elements a subdomain holds. *)
Definition in_domain (mode : dd_mode) (k : nat) (z : Z) : Prop :=
  match mode with NODD => k = 0 | IP => z = (Z.of_nat k + 1)%Z end.

(** Boundary element [be] of subdomain [sm] lies on the edge of the mesh with the ends [a] and [b], next to element [e]
    of the mesh, on whose side [l] it is. *)
Definition bdr_on (sm : smesh) (be e l a b : nat) : Prop :=
  exists k f i a' b', nth_error (sm_bdr sm) be = Some k /\ nth_error (sm_faces sm) k = Some f /\ fi_el1 f = i /\
    nth_error (sm_pel sm) i = Some e /\ (side_on (sm_elems sm) i l a' b') /\ same_edge (a', b') (fi_edge f) = true /\
    nth_error (sm_vert sm) a' = Some a /\ nth_error (sm_vert sm) b' = Some b.
