(** Specification vocabulary for meshes split into subdomains. *)
From Coq Require Import ZArith List Bool Lia.
From Verif Require Import Outcome TopoModel.
Import ListNotations.
Local Open Scope nat_scope.

(** [out] lists the elements of [l] once each, ordered by first occurrence. *)
Inductive first_occurrences : list Z -> list Z -> Prop :=
| fo_nil : first_occurrences [] []
| fo_new l out a : first_occurrences l out -> ~ In a l -> first_occurrences (l ++ [a]) (out ++ [a])
| fo_old l out a : first_occurrences l out -> In a l -> first_occurrences (l ++ [a]) out.

(** Boundary element [ib] of subdomain [i] exists and lies on parent face [f]. *)
Definition on_face (meshes : list submesh) (i ib f : nat) : Prop :=
  exists m b, nth_error meshes i = Some m /\ nth_error m ib = Some b /\ be_face b = f.

(** ... and next to parent element [e]. *)
Definition on_side (meshes : list submesh) (i ib f e : nat) : Prop :=
  exists m, nth_error meshes i = Some m /\ nth_error m ib = Some (BdrElem f e).

(** The subdomains come from one conforming mesh: a subdomain has at most one boundary element on a face
    and a face bounds at most two subdomains. *)
Record conforming (meshes : list submesh) : Prop := {
  one_per_face : forall i ib ib' f, on_face meshes i ib f -> on_face meshes i ib' f -> ib = ib';
  two_sides : forall i j k ib jb kb f,
    on_face meshes i ib f -> on_face meshes j jb f -> on_face meshes k kb f -> i = j \/ j = k \/ i = k }.

(** No boundary element of the parent mesh lies on [f]. *)
Definition interior (pb : parent_bdr) (f : nat) : Prop := forall a, ~ In (f, a) pb.

(** Subdomains [i] and [j] share the interior face [f], seen as boundary elements [ib] and [jb]. *)
Definition shared (pb : parent_bdr) (meshes : list submesh) (i ib j jb f : nat) : Prop :=
  on_face meshes i ib f /\ on_face meshes j jb f /\ interior pb f.

Definition adjacent (pb : parent_bdr) (meshes : list submesh) (i j : nat) : Prop :=
  exists ib jb f, shared pb meshes i ib j jb f.

(** [inf] is the code the parent mesh stores for the side of [f] on which element [e] lies. *)
Definition side_code (f : pface) (e : nat) (inf : Z) : Prop :=
  (e = pf_el1 f /\ inf = pf_inf1 f) \/ (e = pf_el2 f /\ inf = pf_inf2 f).

(** The two elements next to a shared face are those the parent mesh records. *)
Definition sides_recorded (faces : nat -> pface) (meshes : list submesh) : Prop :=
  forall i j ib jb f ei ej, i <> j -> on_side meshes i ib f ei -> on_side meshes j jb f ej ->
    (ei = pf_el1 (faces f) /\ ej = pf_el2 (faces f)) \/ (ei = pf_el2 (faces f) /\ ej = pf_el1 (faces f)).
