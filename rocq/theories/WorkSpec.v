(** What a configuration says about the files and sizes of bases, and what training must read.  Nothing of the
    driver's model is used except the type of the topology mode. *)
From Coq Require Import ZArith List String Reals.
From Verif Require Import Outcome TagsModel TagsSpec ConfigModel ConfigSpec SnapshotModel SnapshotSpec.
Import ListNotations.
Open Scope string_scope.

Section Spec.
  Context (dstr : tree -> outcome string) (dint : tree -> outcome Z) (fmt : string -> Z -> string).

  (** A value of the given type at a path. *)
  Definition holds {T} (dec : tree -> outcome T) (t : tree) (p : list string) (x : T) : Prop :=
    exists n, at_path t p n /\ dec n = Ok x.

  (** A path that leads to nothing, without passing through a scalar. *)
  Definition absent (t : tree) (p : list string) : Prop := ~ present t p /\ ~ below_scalar t p.

  (** The files listed one by one at [p], and those given by a format at [p]: numbers [lo] to [hi], in order. *)
  Inductive listed (t : tree) (p : list string) : list string -> Prop :=
  | listed_none : absent t p -> listed t p []
  | listed_some l fs : at_path t p (Seq l) -> Forall2 (fun n f => dstr n = Ok f) l fs -> listed t p fs.
  Inductive numbered (t : tree) (p : list string) : list string -> Prop :=
  | numbered_none : absent t p -> numbered t p []
  | numbered_some o lo hi f fs : at_path t p o ->
      holds dint o ["minimum"] lo -> holds dint o ["maximum"] hi -> holds dstr o ["format"] f ->
      (forall k, nth_error fs k = if (lo + Z.of_nat k <=? hi)%Z then Some (fmt f (lo + Z.of_nat k)%Z) else None) ->
      numbered t p fs.

  (** The entries of the list "basis/tags" ([nil] when there is no such list). *)
  Inductive tag_entries (cfg : tree) : list tree -> Prop :=
  | tags_absent : absent cfg ["basis"; "tags"] -> tag_entries cfg []
  | tags_other t : at_path cfg ["basis"; "tags"] t -> (forall l, t <> Seq l) -> tag_entries cfg []
  | tags_list l : at_path cfg ["basis"; "tags"] (Seq l) -> tag_entries cfg l.

  (** The first entry with a given name. *)
  Definition first_named (es : list tree) (nm : string) (e : tree) : Prop :=
    exists es1 es2, es = (es1 ++ e :: es2)%list /\ holds dstr e ["name"] nm /\
      forall e0, In e0 es1 -> ~ holds dstr e0 ["name"] nm.
  Definition none_named (es : list tree) (nm : string) : Prop := forall e, In e es -> ~ holds dstr e ["name"] nm.

  (** Every entry has a readable name or none at all. *)
  Definition names_readable (es : list tree) : Prop :=
    forall e, In e es -> absent e ["name"] \/ exists nm, holds dstr e ["name"] nm.

  (** The files configured for a basis. *)
  Inductive configured (cfg : tree) (nm : string) : list string -> Prop :=
  | conf_none es : tag_entries cfg es -> none_named es nm -> configured cfg nm []
  | conf_some es e fs gs : tag_entries cfg es -> first_named es nm e ->
      listed e ["snapshot_files"] fs -> numbered e ["snapshot_format"] gs -> configured cfg nm (fs ++ gs).

  (** The components declared for a component-wise mesh: the names of the listed entries.  Anything without entries
      declares none. *)
  Inductive declared (cfg : tree) : list string -> Prop :=
  | declared_list l cs : at_path cfg ["mesh"; "component-wise"; "components"] (Seq l) ->
      Forall2 (fun e c => holds dstr e ["name"] c) l cs -> declared cfg cs
  | declared_none d : at_path cfg ["mesh"; "component-wise"; "components"] d ->
      (d = Null \/ (exists s, d = Scalar s) \/ d = Map []) -> declared cfg [].

  (** The files used: those configured, or the default when there are none. *)
  Definition used (default : string) (fs used : list string) : Prop :=
    (fs = [] /\ used = [default]) \/ (fs <> [] /\ used = fs).

  (** The size of a basis: the entry's own number if it has one, else the common number. *)
  Definition common_size (cfg : tree) (n : Z) : Prop :=
    holds dint cfg ["basis"; "number_of_basis"] n \/ (absent cfg ["basis"; "number_of_basis"] /\ n = (-1)%Z).
  Inductive basis_size (cfg : tree) (nm : string) : Z -> Prop :=
  | size_common es n : tag_entries cfg es -> none_named es nm -> common_size cfg n -> basis_size cfg nm n
  | size_inherit es e n : tag_entries cfg es -> first_named es nm e -> absent e ["number_of_basis"] ->
      common_size cfg n -> basis_size cfg nm n
  | size_own es e n c : tag_entries cfg es -> first_named es nm e -> holds dint e ["number_of_basis"] n ->
      common_size cfg c -> basis_size cfg nm n.
End Spec.

(** The tags of a problem, component by component; each with every variable. *)
Definition component_major (comps vars : list string) (ts : list basis_tag) : Prop :=
  List.length ts = (List.length comps * List.length vars)%nat /\
  forall i j c v, nth_error comps i = Some c -> nth_error vars j = Some v ->
    nth_error ts (i * List.length vars + j) = Some {| comp := c; var := v |}.

(** The variables of each physics, as its solver names them. *)
Inductive physics_vars : string -> list string -> Prop :=
| pv_poisson : physics_vars "poisson" ["solution"]
| pv_linelast : physics_vars "linelast" ["solution"]
| pv_stokes : physics_vars "stokes" ["vel"; "pres"]
| pv_steady : physics_vars "steady-ns" ["vel"; "pres"]
| pv_unsteady : physics_vars "unsteady-ns" ["vel"; "pres"].

(** The sum of the first [n] entries. *)
Definition prefix_sum (l : list R) (n : nat) : R := fold_right Rplus 0%R (firstn n l).
