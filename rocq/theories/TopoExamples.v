(** Concrete meshes for the theorems about subdomains. *)
From Coq Require Import ZArith List Bool Lia.
From Verif Require Import Outcome TopoModel TopoSpec TopoProofs.
Import ListNotations.
Local Open Scope nat_scope.

Example attribute_list : update_attributes [4; 2; 4; 4; 1; 2]%Z = [4; 2; 1]%Z.
Proof. reflexivity. Qed.

Example code_of_face_3_orientation_5 : inf_encode 3 5 = 197%Z /\ inf_face 197 = 3%Z /\ inf_ori 197 = 5%Z.
Proof. repeat split. Qed.

Example reversed_segment : segment_orientation [7; 9]%Z [9; 7]%Z = Ok 1%Z.
Proof. reflexivity. Qed.

(** Three subdomains: 0 and 1 share the faces 1 and 2, 1 and 2 share the face 3; the faces 0 and 4 carry
    boundary elements with attributes 1 and 2. *)
Definition ex_meshes : list submesh :=
  [[BdrElem 0 10; BdrElem 1 10; BdrElem 2 11]; [BdrElem 2 21; BdrElem 3 22; BdrElem 1 20];
   [BdrElem 4 30; BdrElem 3 30]].
Definition ex_bdr : parent_bdr := [(0, 1%Z); (4, 2%Z)].
Definition ex_faces (f : nat) : pface :=
  match f with
  | 1 => PFace 20 10 64 129
  | 2 => PFace 11 21 0 65
  | 3 => PFace 22 30 128 193
  | _ => PFace 0 0 0 0
  end.

Definition ex_table : list (nat * nat * nat) :=
  [(0, 0, 0); (0, 1, 1); (0, 2, 2); (1, 0, 2); (1, 1, 3); (1, 2, 1); (2, 0, 4); (2, 1, 3)].

Lemma ex_table_ok i ib f : on_face ex_meshes i ib f -> In (i, ib, f) ex_table.
Proof.
  intros (m & b & H1 & H2 & <-).
  destruct i as [|[|[|[|]]]]; simpl in H1; try discriminate; injection H1 as <-;
  destruct ib as [|[|[|[|]]]]; simpl in H2; try discriminate; injection H2 as <-; simpl; auto 10.
Qed.

Lemma ex_conforming : conforming ex_meshes.
Proof.
  split.
  - intros i ib ib' f H1 H2. apply ex_table_ok in H1, H2. simpl in H1, H2.
    intuition congruence.
  - intros i j k ib jb kb f H1 H2 H3. apply ex_table_ok in H1, H2, H3. simpl in H1, H2, H3.
    intuition (try tauto; try (exfalso; congruence);
      (left; congruence) || (right; left; congruence) || (right; right; congruence)).
Qed.

Lemma ex_sides : sides_recorded ex_faces ex_meshes.
Proof.
  intros i j ib jb f ei ej N (m & H1 & H2) (m' & H3 & H4).
  destruct i as [|[|[|[|]]]]; simpl in H1; try discriminate; injection H1 as <-;
  destruct j as [|[|[|[|]]]]; simpl in H3; try discriminate; try (exfalso; apply N; reflexivity); injection H3 as <-;
  destruct ib as [|[|[|[|]]]]; simpl in H2; try discriminate; injection H2 as <- <-;
  destruct jb as [|[|[|[|]]]]; simpl in H4; try discriminate; injection H4; intros; try discriminate; subst; simpl; auto.
Qed.

Example ex_build : exists st, build_interface_infos ex_faces ex_bdr ex_meshes = Ok st /\
  bs_ports st = [PortInfo 4 0 1 4 4; PortInfo 5 1 2 5 5] /\
  bs_infos st = [[ItfInfo 1 2 129 64; ItfInfo 2 0 0 65]; [ItfInfo 1 1 128 193]] /\
  bs_attrs st = [[1; 4; 4]; [4; 5; 4]; [2; 5]]%Z /\
  final_bdr_attributes st = [[1; 4]; [4; 5]; [2; 5]]%Z.
Proof. eexists. vm_compute. repeat split. Qed.

Example ex_hypotheses : conforming ex_meshes /\ ex_bdr <> [] /\ (forall f a, In (f, a) ex_bdr -> (0 < a)%Z) /\
  sides_recorded ex_faces ex_meshes /\ adjacent ex_bdr ex_meshes 0 1 /\ ~ adjacent ex_bdr ex_meshes 0 2.
Proof.
  split; [apply ex_conforming|]. split; [discriminate|]. split.
  { intros f a [[= <- <-]|[[= <- <-]|[]]]; lia. }
  split; [apply ex_sides|]. split.
  - exists 1, 2, 1. split; [|split].
    + eexists _, _. repeat split.
    + eexists _, _. repeat split.
    + intros a [[=]|[[=]|[]]].
  - intros (ib & jb & f & H1 & H2 & _). apply ex_table_ok in H1, H2. simpl in H1, H2. intuition congruence.
Qed.

(** Two subdomains that share face 1, on which the parent mesh has a boundary element with attribute 3:
    no port is created. *)
Definition int_meshes : list submesh := [[BdrElem 0 10; BdrElem 1 10]; [BdrElem 1 20; BdrElem 2 20]].
Definition int_bdr : parent_bdr := [(0, 1%Z); (2, 2%Z); (1, 3%Z)].

Lemma int_conforming : conforming int_meshes.
Proof.
  assert (T : forall i ib f, on_face int_meshes i ib f -> In (i, ib, f) [(0, 0, 0); (0, 1, 1); (1, 0, 1); (1, 1, 2)]).
  { intros i ib f (m & b & H1 & H2 & <-).
    destruct i as [|[|[|]]]; simpl in H1; try discriminate; injection H1 as <-;
    destruct ib as [|[|[|]]]; simpl in H2; try discriminate; injection H2 as <-; simpl; auto 10. }
  split.
  - intros i ib ib' f H1 H2. apply T in H1, H2. simpl in H1, H2. intuition congruence.
  - intros i j k ib jb kb f H1 H2 H3. apply T in H1, H2, H3. simpl in H1, H2, H3. intuition congruence.
Qed.

Lemma internal_boundary_face_lost : exists faces pb meshes i j ib jb f st,
  conforming meshes /\ pb <> [] /\ (forall f a, In (f, a) pb -> (0 < a)%Z) /\
  i < j /\ on_face meshes i ib f /\ on_face meshes j jb f /\
  build_interface_infos faces pb meshes = Ok st /\ bs_ports st = [].
Proof.
  exists ex_faces, int_bdr, int_meshes, 0, 1, 1, 0, 1. eexists.
  split; [apply int_conforming|]. split; [discriminate|]. split.
  { intros f a [[= <- <-]|[[= <- <-]|[[= <- <-]|[]]]]; lia. }
  split; [lia|]. split; [eexists _, _; repeat split|]. split; [eexists _, _; repeat split|].
  split; [vm_compute; reflexivity|reflexivity].
Qed.
