(** A square and a triangle next to each other. *)
From Coq Require Import ZArith QArith Qreals Qabs List Bool Lia Lra Reals String.
From Verif Require Import Outcome TopoModel CompModel CompSpec LaBase SplitModel SplitSpec SplitProofs SplitExamples AsmModel AsmSpec AsmProofs.
Import ListNotations.
Local Open Scope nat_scope.

(** Square with the corners 0, 1, 2, 3; triangle with the corners 0, 1, 2. *)
Definition ax_square : cmesh := CMesh 4 (Mesh2 [Elem 1 [0; 1; 2; 3]] [(0, 1, 1%Z); (1, 2, 2%Z); (2, 3, 3%Z); (3, 0, 4%Z)]).
Definition ax_triangle : cmesh := CMesh 3 (Mesh2 [Elem 1 [0; 1; 2]] [(0, 1, 1%Z); (1, 2, 2%Z); (2, 0, 4%Z)]).
Definition ax_comps : list cmesh := [ax_square; ax_triangle].

Definition ax_q (z : Z) (v d : nat) : Q :=
  match z, v, d with
  | 0%Z, 1, 0 | 0%Z, 2, 0 | 0%Z, 2, 1 | 0%Z, 3, 1 => 1
  | 1%Z, 1, 0 | 1%Z, 2, 1 => 1
  | _, _, _ => 0
  end.
Definition ax_X (z : Z) (v : nat) : R * R := (Q2R (ax_q z v 0), Q2R (ax_q z v 1)).

(** The triangle is placed one unit to the right. *)
Definition ax_P : mesh_config := MeshConfig 1 0 0 0 0 0.
Definition ax_x1 : coords := fun z d => ax_q 0 (Z.to_nat z) d.
Definition ax_x2 : coords := fun z d => (ax_q 1 (Z.to_nat z) d + (if (d =? 0)%nat then 1 else 0))%Q.
Definition ax_thr : Q := 1 # 10000000000.

Definition ax_pd : port_data := PortData 0 1 2 4 [(0, 1); (2, 2)]%Z [(1, 2)]%Z.

Lemma ax_square_ok : comp_ok ax_square.
Proof.
  split; [split|].
  - intros x H. cbn in H. intuition (subst; cbn; auto).
  - intros x [<-|[]]. cbn. repeat constructor; cbn; intuition lia.
  - intros x [<-|[]]. cbn. lia.
  - apply two_check. vm_compute. reflexivity.
  - intros a b z H. cbn in H. assert (K : forall e l, In (e, l, (a, b)) (side_uses (m_elems (cm_mesh ax_square))) -> exists e l, side_on (m_elems (cm_mesh ax_square)) e l a b).
    { intros e l Q. apply side_use in Q. exists e, l. left. auto. }
    destruct H as [H|[H|[H|[H|[]]]]]; injection H as <- <- <-; (split; [lia|]); [apply (K 0 0)|apply (K 0 1)|apply (K 0 2)|apply (K 0 3)]; cbn; auto 10.
  - discriminate.
  - intros x v [<-|[]] Hv. cbn in *. intuition lia.
Qed.

Lemma ax_triangle_ok : comp_ok ax_triangle.
Proof.
  split; [split|].
  - intros x H. cbn in H. intuition (subst; cbn; auto).
  - intros x [<-|[]]. cbn. repeat constructor; cbn; intuition lia.
  - intros x [<-|[]]. cbn. lia.
  - apply two_check. vm_compute. reflexivity.
  - intros a b z H. cbn in H. assert (K : forall e l, In (e, l, (a, b)) (side_uses (m_elems (cm_mesh ax_triangle))) -> exists e l, side_on (m_elems (cm_mesh ax_triangle)) e l a b).
    { intros e l Q. apply side_use in Q. exists e, l. left. auto. }
    destruct H as [H|[H|[H|[]]]]; injection H as <- <- <-; (split; [lia|]); [apply (K 0 0)|apply (K 0 1)|apply (K 0 2)]; cbn; auto 10.
  - discriminate.
  - intros x v [<-|[]] Hv. cbn in *. intuition lia.
Qed.

Lemma ax_comps_ok : forall c, In c ax_comps -> comp_ok c.
Proof. intros c [<-|[<-|[]]]; [apply ax_square_ok|apply ax_triangle_ok]. Qed.

Lemma ax_built : forall r pd, zth [ax_pd] r pd -> built ax_thr 0 ax_comps ax_X ax_P pd.
Proof.
  intros r pd (_ & H). destruct (Z.to_nat r) as [|[|n]]; try discriminate. injection H as <-.
  exists ax_square, ax_triangle, ax_x1, ax_x2. split; [split; [cbn; lia|reflexivity]|]. split; [split; [cbn; lia|reflexivity]|]. split; [|split].
  - intros v. unfold ax_x1, ax_X. rewrite Nat2Z.id. cbn [fst snd pd_comp1 ax_pd]. unfold Rminus. rewrite !Rplus_opp_r, Rabs_R0. lra.
  - intros v. unfold ax_x2, ax_X, transform2d, ax_P. rewrite Nat2Z.id. cbn [fst snd pd_comp2 ax_pd mc_r0 mc_t0 mc_t1 Nat.eqb]. rewrite sin_0, cos_0, !Q2R_plus. replace (Q2R 1) with 1%R by (unfold Q2R; cbn; lra). replace (Q2R 0) with 0%R by (unfold Q2R; cbn; lra).
    set (a := Q2R (ax_q 1 v 0)). set (b := Q2R (ax_q 1 v 1)). replace (a + 1 - (1 * a - 0 * b + 1))%R with 0%R by ring. replace (b + 0 - (0 * a + 1 * b + 0))%R with 0%R by ring. rewrite Rabs_R0. lra.
  - vm_compute. reflexivity.
Qed.

(** Two subdomains and the port between them. *)
Definition ax_types : list Z := [0; 1]%Z.
Definition ax_port : gport := GPort 5 0 1 2 4.
Example ax_setup : setup_ports ax_types [ax_pd] [ax_port] [0%Z] = Ok [0%Z].
Proof. reflexivity. Qed.

Lemma ax_types_ok : forall t, In t ax_types -> exists c, zth ax_comps t c.
Proof. intros t [<-|[<-|[]]]; eexists; (split; [lia|reflexivity]). Qed.

(** The side of the triangle is run through in the other direction. *)
Example ax_infos : ref_interfaces ax_comps [ax_pd] = Ok [[ItfInfo 1 2 64 129]].
Proof. reflexivity. Qed.

Definition ax_subs : list smesh := match sub_meshes ax_comps ax_types with Ok l => l | _ => [] end.
Example ax_meshes : sub_meshes ax_comps ax_types = Ok ax_subs.
Proof. reflexivity. Qed.

(** The placements of the two subdomains: where they fit, and five units away. *)
Definition ax_cf1 : mesh_config := MeshConfig 0 0 0 0 0 0.
Definition ax_far : mesh_config := MeshConfig 6 0 0 0 0 0.

Lemma ax_fits : fits ax_cf1 ax_P ax_P.
Proof. intros (a, b). unfold transform2d, ax_cf1, ax_P. cbn. rewrite sin_0, cos_0. f_equal; ring. Qed.

Definition ax_t1 : iside := ISide 0 ((1, 0), (1, 1))%R.
Definition ax_t2 : iside := ISide 0 ((0, 0), (0, 1))%R.
Example ax_trans : interface_transformations ax_subs 0 1 (ItfInfo 1 2 64 129) = Ok (ax_t1, ax_t2).
Proof. reflexivity. Qed.

Lemma ax_gap : forall xi, dist2 (side_point (place ax_cf1 (ax_X 0)) (nth 0 ax_subs (SMesh [] [] [] [] [])) ax_t1 xi)
                               (side_point (place ax_far (ax_X 1)) (nth 1 ax_subs (SMesh [] [] [] [] [])) ax_t2 xi) = 25%R.
Proof.
  assert (S1 : forall X xi, side_point X (nth 0 ax_subs (SMesh [] [] [] [] [])) ax_t1 xi = elem_map [X 0; X 1; X 2; X 3] ((1 - xi) * 1 + xi * 1, (1 - xi) * 0 + xi * 1)%R) by reflexivity.
  assert (S2 : forall X xi, side_point X (nth 1 ax_subs (SMesh [] [] [] [] [])) ax_t2 xi = elem_map [X 0; X 1; X 2] ((1 - xi) * 0 + xi * 0, (1 - xi) * 0 + xi * 1)%R) by reflexivity.
  intros xi. rewrite S1, S2. unfold place, transform2d, ax_X, ax_cf1, ax_far. cbn [ax_q fst snd mc_r0 mc_t0 mc_t1]. rewrite sin_0, cos_0. replace (Q2R 1) with 1%R by (unfold Q2R; cbn; lra). replace (Q2R 0) with 0%R by (unfold Q2R; cbn; lra).
  unfold dist2, elem_map. cbn [fst snd]. ring.
Qed.
