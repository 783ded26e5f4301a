(** Boundary conditions as a user states them. *)
From Coq Require Import Reals List Bool Lia Arith ZArith Ascii String.
From Verif Require Import Outcome LaBase MbModel ProbModel BcModel.
Import ListNotations.
Local Open Scope list_scope.
Local Open Scope R_scope.

(** A problem that lists each boundary once, by its attribute. *)
Definition listed (p : problem) : Prop := NoDup (pb_battr p) /\ forall a, In a (pb_battr p) -> (0 < a)%Z.
(** One condition for all boundaries *)
Definition one_for_all (p : problem) : Prop := pb_battr p = [-1]%Z.
(** A type for every boundary listed, a function for every Dirichlet boundary *)
Definition complete {F} (p : problem) (fs : list (option F)) : Prop :=
  List.length (pb_types p) = List.length (pb_battr p) /\ List.length fs = List.length (pb_battr p) /\
  forall i, nth_error (pb_types p) i = Some BDirichlet -> nth_error fs i <> Some None.

(** Index of the condition for the boundary with attribute [a] *)
Definition item (p : problem) (a : Z) : option nat :=
  if (nth 0 (pb_battr p) 0 =? -1)%Z then Some 0%nat else attr_find (pb_battr p) a 0.
(** The condition on the solution there: a prescribed function, zero, or nothing *)
Definition prescribed {F} (mk : F -> coeff) (fs : list (option F)) (p : problem) (a : Z) : option coeff :=
  match item p a with
  | None => None
  | Some i => match nth i (pb_types p) BNone with
              | BDirichlet => option_map mk (nth i fs None)
              | BNeumann => None
              | _ => Some CZero
              end
  end.

(** Elasticity: a displacement or a traction *)
Definition elastic_prescribed (p : problem) (a : Z) : option lterm :=
  match item p a with
  | None => None
  | Some i => match nth i (pb_types p) BNone, nth i (pb_vbdr p) None with
              | BDirichlet, Some f => Some (LDirichlet (CVector f))
              | BNeumann, Some f => Some (LTraction (CVector f))
              | _, _ => None
              end
  end.
Definition displaced (t : option lterm) : option unit := match t with Some (LDirichlet _) => Some tt | _ => None end.

(** What a solver enforces on boundary [b] *)
Definition enforced (types : list btype) (bdr : list (option coeff)) (b : nat) : option coeff :=
  match nth b types BNone with BNeumann => None | _ => nth b bdr None end.
Definition sized (gattr : list Z) (types : list btype) (bdr : list (option coeff)) : Prop :=
  List.length types = List.length gattr /\ List.length bdr = List.length gattr.

(** A solver whose types do not hold back a condition for all boundaries *)
Definition fresh_for (p : problem) (types : list btype) : Prop := listed p \/ (one_for_all p /\ ~ In BNeumann types).

(** One term for each subdomain that touches boundary [b] *)
Definition terms {A} (ms : list (list Z)) (gattr : list Z) (f : nat -> option A) : list (nat * nat * A) :=
  flat_map (fun m => flat_map (fun b =>
    if existsb (Z.eqb (nth b gattr 0%Z)) (nth m ms []) then match f b with Some r => [(m, b, r)] | None => [] end else [])
    (seq 0 (List.length gattr))) (seq 0 (List.length ms)).

(** ** Flux *)

Fixpoint lsum {A} (f : A -> R) (l : list A) : R := match l with [] => 0 | x :: t => f x + lsum f t end.
(** Net flux of the velocities [u] out of the boundaries selected by [sel] *)
Definition net_flux (gattr : list Z) (sel : nat -> bool) (meshes : list (list belem)) (u : nat -> vec -> vec) : R :=
  lsum (lsum (fun e => match attr_find gattr (be_attr e) 0 with
    | Some i => if sel i then lsum (fun q => dot (List.length (qp_x q)) (u i (qp_x q)) (qp_n q)) (be_q e) else 0
    | None => 0 end)) meshes.
Definition area_of (gattr : list Z) (sel : nat -> bool) (meshes : list (list belem)) : R :=
  lsum (lsum (fun e => match attr_find gattr (be_attr e) 0 with Some i => if sel i then lsum qp_w (be_q e) else 0 | None => 0 end)) meshes.
Definition moment_of (gattr : list Z) (sel : nat -> bool) (meshes : list (list belem)) (k : nat) : R :=
  lsum (lsum (fun e => match attr_find gattr (be_attr e) 0 with Some i => if sel i then lsum (fun q => vnth (qp_x q) k * qp_w q) (be_q e) else 0 | None => 0 end)) meshes.
(** Points of the boundary mesh are points of [dim] coordinates. *)
Definition points_ok (dim : nat) (meshes : list (list belem)) : Prop :=
  forall es e q, In es meshes -> In e es -> In q (be_q e) -> List.length (qp_x q) = dim.
(** [u] is what the coefficients evaluate to at points of [dim] coordinates: all velocities are finite. *)
Definition evaluates (dim : nat) (g : gvars) (ud : list (option coeff)) (del : option R) (x0 : option vec) (u : nat -> vec -> vec) : Prop :=
  forall i c x, nth_error ud i = Some (Some c) -> List.length x = dim -> ceval c g del x0 x = Ok (Some (u i x)).
(** Boundary [b] of the mesh is assigned a homogeneous condition. *)
Definition homogeneous (p : problem) (a : Z) : bool :=
  match item p a with Some i => match nth i (pb_types p) BNone with BZero => true | _ => false end | None => false end.
(** Boundary number [i] of the mesh is not *)
Definition inhomogeneous (gattr : list Z) (p : problem) (i : nat) : bool := nth i (map (fun a => negb (homogeneous p a)) gattr) false.
(** The problem lists its homogeneous boundaries at the places they have in the mesh. *)
Definition aligned (gattr : list Z) (p : problem) : Prop :=
  forall i, nth_error (pb_types p) i = Some BZero -> nth_error gattr i = nth_error (pb_battr p) i.
(** Direction of the correction, away from the point [z] *)
Definition outward (z x : vec) : vec := map (fun i => vnth x i - vnth z i) (seq 0 (List.length x)).
(** Centre of the selected boundaries *)
Definition centre (gattr : list Z) (sel : nat -> bool) (meshes : list (list belem)) (dim : nat) : vec := map (fun k => moment_of gattr sel meshes k / area_of gattr sel meshes) (seq 0 dim).

(** A call that concerns a boundary of the mesh *)
Definition effective (gattr : list Z) (a : Z) : bool := if (0 <? a)%Z then match attr_find gattr a 0 with Some _ => true | None => false end else true.
(** Problems set in turn *)
Definition stokes_sets full_dg dim gattr meshes junk (l : list (gvars * problem)) (s : ssolver) : outcome ssolver := ofold (fun s gp => stokes_set full_dg dim gattr meshes junk (fst gp) (snd gp) s) l s.
