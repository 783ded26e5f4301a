(** What assembly over interfaces is supposed to do, stated without the functions of the model. *)
From Coq Require Import Reals List Bool Lia Arith ZArith.
From Verif Require Import Outcome LaBase BlockVec MbModel MbSpec ItfModel.
Import ListNotations.
Local Open Scope nat_scope.

(** The degree of freedom numbered [d] and its sign: [d >= 0] is [d] itself, [-1-d] is [d] with its sign flipped. *)
Definition dof_is (d : Z) (r : nat) (s : R) : Prop := (d = Z.of_nat r /\ s = 1%R) \/ (d = (-1 - Z.of_nat r)%Z /\ s = (-1)%R).

(** Number and sign as functions, tied to [dof_is] by [ItfProofs.dof_is_fun]. *)
Definition dofn (d : Z) : nat := Z.to_nat (if (0 <=? d)%Z then d else - d - 1)%Z.
Definition dofs (d : Z) : R := if (0 <=? d)%Z then 1%R else (-1)%R.

(** Contributions to the entries of a vector or a matrix: a place and a number; their sum at a place. *)
Definition place_eqb (a b : nat * nat) : bool := (fst a =? fst b) && (snd a =? snd b).
Definition vcontrib := ((nat * nat) * R)%type.
Definition mcontrib := (((nat * nat) * (nat * nat)) * R)%type.
Definition vat (l : list vcontrib) (p : nat * nat) : R :=
  fold_right (fun c a => (if place_eqb p (fst c) then snd c + a else a)%R) 0%R l.
Definition mat_at (l : list mcontrib) (p q : nat * nat) : R :=
  fold_right (fun c a => (if place_eqb p (fst (fst c)) && place_eqb q (snd (fst c)) then snd c + a else a)%R) 0%R l.

Definition side {A} (i : nat) (a b : A) : A := if i =? 0 then a else b.
Definition zth (l : list Z) (k : nat) : Z := nth k l 0%Z.
Definition fth (l : list fespace) (m : nat) : fespace := nth m l (Fes 0 (fun _ => [])).

(** Degrees of freedom of side [i] of face [f] of port [p]. *)
Definition side_dofs (fes : list fespace) (p : itf_port) (f : face) (i : nat) : list Z :=
  fe_dofs (fth fes (side i (ip_m1 p) (ip_m2 p))) (side i (f_e1 f) (f_e2 f)).
Definition side_mesh (p : itf_port) (i : nat) : nat := side i (ip_m1 p) (ip_m2 p).

(** All faces of all ports with two transformations. *)
Definition real_faces (ports : list itf_port) : list (itf_port * face) :=
  flat_map (fun p => flat_map (fun fo => match fo with Some f => [(p, f)] | None => [] end) (ip_faces p)) ports.

(** One contribution per port, face, integrator, pair of sides and pair of degrees of freedom; [E] is the element matrix. *)
Definition face_contribs (test trial : list fespace) (p : itf_port) (f : face) (E : nat -> nat -> fmat) : list mcontrib :=
  flat_map (fun i => flat_map (fun j => flat_map (fun k => map (fun l =>
     (((side_mesh p i, dofn (zth (side_dofs test p f i) k)), (side_mesh p j, dofn (zth (side_dofs trial p f j) l))),
      (dofs (zth (side_dofs test p f i) k) * dofs (zth (side_dofs trial p f j) l) * fm_val (E i j) k l)%R))
     (seq 0 (List.length (side_dofs trial p f j)))) (seq 0 (List.length (side_dofs test p f i)))) [0; 1]) [0; 1].

Definition all_contribs {I} (test trial : list fespace) (ports : list itf_port) (itgs : list I) (E : I -> itf_port -> face -> nat -> nat -> fmat) : list mcontrib :=
  flat_map (fun pf => flat_map (fun g => face_contribs test trial (fst pf) (snd pf) (E g (fst pf) (snd pf))) itgs) (real_faces ports).

(** The part of [x] seen by an element. *)
Definition local (fes : list fespace) (x : nat * nat -> R) (p : itf_port) (f : face) (i : nat) : vec :=
  map (fun d => (dofs d * x (side_mesh p i, dofn d))%R) (side_dofs fes p f i).

Definition face_vcontribs (fes : list fespace) (p : itf_port) (f : face) (e : vec * vec) : list vcontrib :=
  flat_map (fun i => map (fun k =>
     ((side_mesh p i, dofn (zth (side_dofs fes p f i) k)), (dofs (zth (side_dofs fes p f i) k) * vnth (side i (fst e) (snd e)) k)%R))
     (seq 0 (List.length (side_dofs fes p f i)))) [0; 1].
Definition all_vcontribs {I} (fes : list fespace) (ports : list itf_port) (itgs : list I) (x : nat * nat -> R) (F : I -> face -> vec -> vec -> vec * vec) : list vcontrib :=
  flat_map (fun pf => flat_map (fun g =>
    face_vcontribs fes (fst pf) (snd pf) (F g (snd pf) (local fes x (fst pf) (snd pf) 0) (local fes x (fst pf) (snd pf) 1))) itgs) (real_faces ports).

(** Ports join existing subdomains, their faces have degrees of freedom that exist. *)
Definition ports_fit (fes : list fespace) (ports : list itf_port) : Prop :=
  (forall p, In p ports -> ip_m1 p < List.length fes /\ ip_m2 p < List.length fes) /\
  (forall p f i, In (p, f) (real_faces ports) -> i < 2 ->
     forall d, In d (side_dofs fes p f i) -> dofn d < fe_size (fth fes (side_mesh p i))).

(** Element matrices of the size of the faces. *)
Definition elem_fits (test trial : list fespace) (ports : list itf_port) (E : itf_port -> face -> nat -> nat -> fmat) : Prop :=
  forall p f i j, In (p, f) (real_faces ports) -> i < 2 -> j < 2 ->
    List.length (side_dofs test p f i) <= fm_h (E p f i j) /\ List.length (side_dofs trial p f j) <= fm_w (E p f i j).

(** Matrices for all pairs of subdomains, of the right sizes. *)
Definition mats_fit (test trial : list fespace) (B : blockmat) : Prop :=
  List.length test = List.length trial /\
  forall i j, i < List.length test -> j < List.length trial ->
    exists M, B i j = Some M /\ fm_h M = fe_size (fth test i) /\ fm_w M = fe_size (fth trial j).

(** Entry of a block matrix, and of a vector of all subdomains. *)
Definition bm_entry (B : blockmat) (p q : nat * nat) : R := val (B (fst p) (fst q)) (snd p) (snd q).
Definition fe_start (fes : list fespace) (m : nat) : nat := fold_right (fun s a => fe_size s + a) 0 (firstn m fes).
Definition v_entry (fes : list fespace) (x : vec) (p : nat * nat) : R := vnth x (fe_start fes (fst p) + snd p).
Definition in_range (fes : list fespace) (p : nat * nat) : Prop := fst p < List.length fes /\ snd p < fe_size (fth fes (fst p)).
Definition v_size (fes : list fespace) : nat := fe_start fes (List.length fes).

(** Row [p] of the product of a block matrix with a vector. *)
Definition bm_row (fes : list fespace) (B : blockmat) (x : vec) (p : nat * nat) : R :=
  rsum (List.length fes) (fun J => rsum (fe_size (fth fes J)) (fun c => bm_entry B p (J, c) * v_entry fes x (J, c))%R).

(** Row [k] of side [i] of the element matrices times the element vectors. *)
Definition elem_row (E : nat -> nat -> fmat) (e1 e2 : vec) (i k : nat) : R :=
  rsum 2 (fun j => rsum (List.length (side j e1 e2)) (fun l => fm_val (E i j) k l * vnth (side j e1 e2) l)%R).

(** All blocks zero. *)
Definition zero_mats (test trial : list fespace) : blockmat :=
  fun i j => if (i <? List.length test) && (j <? List.length trial) then Some (FMat (fe_size (fth test i)) (fe_size (fth trial j)) (fun _ _ => 0%R)) else None.
Definition vplus (a b : vec) : vec := map (fun k => (vnth a k + vnth b k)%R) (seq 0 (List.length a)).

(** A port looks like a reference port: same spaces, same elements next to the faces, same element matrices. *)
Definition same_elem (A B : fmat) : Prop := fm_h A = fm_h B /\ fm_w A = fm_w B /\ forall k l, fm_val A k l = fm_val B k l.
Definition same_face (itgs : list mat_integ) (a b : option face) : Prop :=
  match a, b with
  | None, None => True
  | Some f, Some f' => f_e1 f = f_e1 f' /\ f_e2 f = f_e2 f' /\ forall g i j, In g itgs -> i < 2 -> j < 2 -> same_elem (g f i j) (g f' i j)
  | _, _ => False
  end.
(** [r] names the components of the reference port, [ctest] and [ctrial] are their spaces. *)
Definition like_ref (test trial ctest ctrial : list fespace) (itgs : list mat_integ) (p r : itf_port) : Prop :=
  ip_m1 r < List.length ctest /\ ip_m2 r < List.length ctest /\
  (forall i, i < 2 -> fth test (side_mesh p i) = fth ctest (side_mesh r i) /\ fth trial (side_mesh p i) = fth ctrial (side_mesh r i)) /\
  Forall2 (same_face itgs) (ip_faces p) (ip_faces r).
