(** Vocabulary for subdomains assembled from components. *)
From Coq Require Import ZArith QArith Qreals List Bool Lia Reals String.
From Verif Require Import Outcome TopoModel CompModel LaBase SplitModel SplitSpec AsmModel.
Import ListNotations.
Local Open Scope nat_scope.

(** A component mesh as in [mesh_ok], with all its vertices. *)
Definition comp_ok (c : cmesh) : Prop :=
  mesh_ok (cm_mesh c) /\ forall x v, In x (m_elems (cm_mesh c)) -> In v (el_vert x) -> v < cm_nv c.

(** Entry [z] of a list. *)
Definition zth {A} (l : list A) (z : Z) (a : A) : Prop := (0 <= z)%Z /\ nth_error l (Z.to_nat z) = Some a.

(** The stored coordinates [x] of the vertices are the points [X] up to rounding. *)
Definition stored (eps : R) (x : coords) (X : nat -> R * R) : Prop :=
  forall v, (Rabs (Q2R (x (Z.of_nat v) 0%nat) - fst (X v)) <= eps)%R /\ (Rabs (Q2R (x (Z.of_nat v) 1%nat) - snd (X v)) <= eps)%R.

(** Port data built for two components, the second placed by [P] relative to the first. *)
Definition built (thr : Q) (eps : R) (comps : list cmesh) (X : Z -> nat -> R * R) (P : mesh_config) (pd : port_data) : Prop :=
  exists c1 c2 x1 x2, zth comps (pd_comp1 pd) c1 /\ zth comps (pd_comp2 pd) c2 /\
    stored eps x1 (X (pd_comp1 pd)) /\ stored eps x2 (fun v => transform2d P (X (pd_comp2 pd) v)) /\
    build_port 2 thr (pd_comp1 pd) (pd_comp2 pd) (pd_attr1 pd) (pd_attr2 pd) (bdr_belems c1) (bdr_belems c2) x1 x2 = Ok pd.

(** Placing the second subdomain by [cf2] is placing it by [P] next to a first one that is placed by [cf1]. *)
Definition fits (cf1 P cf2 : mesh_config) : Prop := forall x, transform2d cf2 x = transform2d cf1 (transform2d P x).

Definition dist2 (p q : R * R) : R := ((fst p - fst q) * (fst p - fst q) + (snd p - snd q) * (snd p - snd q))%R.

(** The point at the coordinate [xi] of the segment from [p] to [q]. *)
Definition along (p q : R * R) (xi : R) : R * R := ((1 - xi) * fst p + xi * fst q, (1 - xi) * snd p + xi * snd q)%R.

(** The mesh of component [c] is that of the last entry with its name. *)
Definition last_file (cn : list (string * Z)) (l : list (string * mesh_file)) (c : nat) (m : mesh_file) : Prop :=
  exists pre s post, l = pre ++ (s, m) :: post /\ slookup cn s = Some (Z.of_nat c) /\ forall s' m', In (s', m') post -> slookup cn s' <> Some (Z.of_nat c).
