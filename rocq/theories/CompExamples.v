(** Concrete configurations for the theorems about components. *)
From Coq Require Import ZArith QArith Qabs Lqa List Bool String Lia Permutation Reals.
From Verif Require Import Outcome TopoModel TopoSpec CompModel CompSpec CompProofs CompPortProofs CompBuildProofs.
Import ListNotations.
Local Open Scope nat_scope.
Local Open Scope list_scope.

(** Five subdomains made from two components. *)
Example numbered : count_instances 2 [1; 0; 1; 1; 0]%Z = Ok ([0; 0; 1; 2; 1], [2; 3]).
Proof. reflexivity. Qed.

(** Two squares side by side: boundary 2 of the first meets boundary 4 of the second. *)
Definition square := Comp [1; 2; 3; 4]%Z [1; 2; 3; 4; 4]%Z.
Definition two_rows : list boundary_row := [(7, 0, 1); (7, 1, 1); (8, 0, 3); (8, 1, 3); (5, 0, 4); (6, 1, 2)]%Z.
Definition two_ports : list port_row := [PortRow 0 1 2 4 0]%Z.

Example two_squares : configure [square] [0; 0]%Z two_rows two_ports =
  Ok ([7; 8; 5; 6], [GPort 10 0 1 2 4], [[7; 10; 8; 5; 5]; [7; 6; 8; 10; 10]])%Z.
Proof. reflexivity. Qed.

Lemma square_boundary m a : In m [0; 1]%Z -> In a [1; 2; 3; 4]%Z -> has_boundary [square] [0; 0]%Z m a.
Proof.
  intros Hm Ha. exists square. split; auto. destruct Hm as [<-|[<-|[]]]; (split; [lia|]; exists 0%Z; simpl; auto with zarith).
Qed.

(** The hypotheses of [configure_accepts] hold for it. *)
Example two_squares_complete :
  (forall t, In t [0; 0]%Z -> (0 <= t < Z.of_nat (List.length [square]))%Z) /\
  (forall k, In k [square] -> c_attrs k <> [] /\ incl (c_elems k) (c_attrs k)) /\
  two_rows <> [] /\
  (forall g m a, In (g, m, a) two_rows -> (0 <= g)%Z /\ has_boundary [square] [0; 0]%Z m a) /\
  (forall r, In r two_ports -> has_boundary [square] [0; 0]%Z (pr_mesh1 r) (pr_attr1 r) /\
                               has_boundary [square] [0; 0]%Z (pr_mesh2 r) (pr_attr2 r)) /\
  (forall m k a, instance_of [square] [0; 0]%Z m k -> In a (c_elems k) ->
     (exists g, In (g, m, a) two_rows) \/
     (exists r, In r two_ports /\ ((pr_mesh1 r = m /\ pr_attr1 r = a) \/ (pr_mesh2 r = m /\ pr_attr2 r = a)))).
Proof.
  split; [|split; [|split; [|split; [|split]]]].
  - simpl. intros t [<-|[<-|[]]]; lia.
  - intros k [<-|[]]. split; [discriminate|]. intros a. simpl. intuition.
  - discriminate.
  - intros g m a H. simpl in H. repeat (destruct H as [[= <- <- <-]|H]; [split; [lia|apply square_boundary; simpl; auto]|]). destruct H.
  - intros r [<-|[]]. simpl. split; apply square_boundary; simpl; auto.
  - intros m k a (M0 & t & T & T0 & C) Ha.
    assert (k = square).
    { destruct (Z.to_nat t) as [|[|]]; simpl in C; congruence. }
    subst k. assert (Hm : m = 0%Z \/ m = 1%Z).
    { destruct (Z.to_nat m) as [|[|[|]]] eqn:E; simpl in T; try discriminate; lia. }
    simpl in Ha. destruct Hm as [-> | ->]; repeat (destruct Ha as [<-|Ha]); try destruct Ha;
      try (right; exists (PortRow 0 1 2 4 0)%Z; simpl; tauto);
      left; eexists; unfold two_rows; simpl; tauto.
Qed.

(** A boundary without any line is refused. *)
Example missing_boundary : configure [square] [0; 0]%Z (removelast two_rows) two_ports = Abort.
Proof. reflexivity. Qed.

(** A later line overrides an earlier one, and a port overrides a boundary line. *)
Example overriding : configure [square] [0; 0]%Z (two_rows ++ [(9, 0, 1); (5, 0, 2)])%Z two_ports =
  Ok ([7; 8; 5; 6; 9], [GPort 11 0 1 2 4], [[9; 11; 8; 5; 5]; [7; 6; 8; 11; 11]])%Z.
Proof. reflexivity. Qed.

(** Port files. *)
Definition ex_names : list string := ["square"; "disc"]%string.
Definition ex_port := PortData 1 0 2 4 [(5, 9); (6, 8)]%Z [(3, 1); (2, 0)]%Z.

Example ex_port_file : write_port_file ex_names ex_port [(6, 8); (5, 9)]%Z "p" =
  Ok [PortRec "p" 2 4 "disc" "square" [8; 9] [6; 5] [3; 2] [1; 0]]%Z.
Proof. reflexivity. Qed.

Example ex_port_hyps : NoDup ex_names /\ NoDup ["q"; "p"]%string /\ (exists n, named ex_names (pd_comp1 ex_port) n) /\
  (exists n, named ex_names (pd_comp2 ex_port) n) /\ NoDup (map fst (pd_vtx ex_port)) /\
  Permutation [(6, 8); (5, 9)]%Z (pd_vtx ex_port) /\ named ["q"; "p"]%string 1 "p" /\
  nth_error [Some ex_port; None] (Z.to_nat 1) = Some None.
Proof.
  split; [repeat constructor; simpl; intuition discriminate|].
  split; [repeat constructor; simpl; intuition discriminate|].
  split; [exists "disc"%string; split; [simpl; lia|reflexivity]|].
  split; [exists "square"%string; split; [simpl; lia|reflexivity]|].
  split; [repeat constructor; simpl; intuition discriminate|].
  split; [apply perm_swap|]. split; [split; [lia|reflexivity]|reflexivity].
Qed.

(** A record whose components do not exist becomes a port of component 0 with itself. *)
Lemma unknown_component_accepted :
  exists names pnames r p cn, NoDup names /\ NoDup pnames /\ ~ In (rec_comp1 r) names /\ ~ In (rec_comp2 r) names /\
  read_port_file (name_map pnames) ([None], name_map names) [r] = Ok ([Some p], cn) /\
  pd_comp1 p = 0%Z /\ pd_comp2 p = 0%Z.
Proof.
  exists ex_names, ["p"%string], (PortRec "p" 2 4 "sqare" "disk" [8; 9] [6; 5] [3; 2] [1; 0])%Z.
  eexists. eexists. split; [repeat constructor; simpl; intuition discriminate|].
  split; [repeat constructor; simpl; intuition discriminate|].
  split; [simpl; intuition discriminate|]. split; [simpl; intuition discriminate|].
  split; [reflexivity|]. split; reflexivity.
Qed.

(** Two files define the port "p": the first counts; "q" comes from a description. *)
Definition rec_a := PortRec "p" 2 4 "disc" "square" [8; 9]%Z [6; 5]%Z [3; 2]%Z [1; 0]%Z.
Definition rec_b := PortRec "p" 1 3 "square" "square" [8; 9]%Z [6; 5]%Z [3; 2]%Z [1; 0]%Z.
Example two_definitions : setup_reference_ports ["p"; "q"]%string (name_map ex_names)
    [FromFile [rec_a]; FromInput "q" (Ok ex_port); FromFile [rec_b]; FromInput "r" Abort] =
  Ok [PortData 1 0 2 4 [(6, 8); (5, 9)] [(3, 1); (2, 0)]; ex_port]%Z.
Proof. reflexivity. Qed.

(** Ports against their reference ports. *)
Example ports_checked : setup_ports [0; 0; 1]%Z [PortData 0 0 2 4 [] []; PortData 0 1 3 1 [] []]%Z
    [GPort 10 0 1 2 4; GPort 11 1 2 3 1]%Z [0; 1]%Z = Ok [0; 1]%Z.
Proof. reflexivity. Qed.
Example self_port_refused : setup_ports [0; 0]%Z [PortData 0 0 2 4 [] []]%Z [GPort 10 1 1 2 4]%Z [0]%Z = Abort.
Proof. reflexivity. Qed.

(** Building a port: the right side of one square meets the left side of another, two segments each. *)
Definition side1 : list belem := [BElem 1 [0; 1]; BElem 2 [1; 2]; BElem 2 [2; 3]]%Z.
Definition side2 : list belem := [BElem 4 [13; 12]; BElem 4 [12; 11]; BElem 3 [10; 11]]%Z.
Definition side1_x (v : Z) (d : nat) : Q := match d with O => 1%Q | _ => inject_Z (v - 1) end.
Definition side2_x (v : Z) (d : nat) : Q := match d with O => (101 # 100)%Q | _ => inject_Z (v - 11) end.

Example sides_joined : build_port 2 (1 # 10) 0 0 2 4 side1 side2 side1_x side2_x =
  Ok (PortData 0 0 2 4 [(11, 1); (12, 2); (13, 3)] [(2, 0); (1, 1)])%Z.
Proof. reflexivity. Qed.

Lemma port_vertex_cases l a v : port_vertex l a v -> In v (flat_map e_vtx (filter (fun e => Z.eqb (e_attr e) a) l)).
Proof.
  intros (e & H & A & V). apply in_flat_map. exists e. split; auto. apply filter_In. split; auto. apply Z.eqb_eq; auto.
Qed.

Lemma port_vertex_of l a v : In v (flat_map e_vtx (filter (fun e => Z.eqb (e_attr e) a) l)) -> port_vertex l a v.
Proof.
  intros H. apply in_flat_map in H as (e & H & V). apply filter_In in H as [H A]. apply Z.eqb_eq in A. exists e; auto.
Qed.

Ltac dims d := destruct d as [|[|d]]; [vm_compute; reflexivity|vm_compute; reflexivity|lia].

Example sides_match : port_match 2 (1 # 10) side1 side2 2 4 side1_x side2_x (fun w => w + 10)%Z /\
  (forall w w', port_vertex side1 2 w -> port_vertex side1 2 w' -> w <> w' -> apart 2 (2 * (1 # 10)) (side1_x w) (side1_x w')).
Proof.
  split.
  - split; [exists 1; eexists; split; reflexivity|].
    split; [|split; [|split; [|split; [|split]]]].
    + intros w Hw. apply port_vertex_cases in Hw. simpl in Hw.
      split.
      * apply port_vertex_of. simpl. lia.
      * intros d Hd. repeat (destruct Hw as [<-|Hw]; [dims d|]). destruct Hw.
    + intros w w' _ _ E. lia.
    + intros v Hv. apply port_vertex_cases in Hv. simpl in Hv.
      exists (v - 10)%Z. split; [|lia]. apply port_vertex_of. simpl. lia.
    + exists 2. split; intros e He _; simpl in He; repeat (destruct He as [<-|He]; [reflexivity|]); destruct He.
    + reflexivity.
    + intros e2 He A. simpl in He. destruct He as [<-|[<-|[<-|[]]]]; simpl in A; try discriminate.
      * exists (BElem 2 [2; 3]%Z). simpl. split; auto. split; auto. apply perm_swap.
      * exists (BElem 2 [1; 2]%Z). simpl. split; auto. split; auto. apply perm_swap.
  - intros w w' Hw Hw' N. apply port_vertex_cases in Hw, Hw'. simpl in Hw, Hw'.
    exists 1. split; [lia|].
    repeat (destruct Hw as [<-|Hw]); try destruct Hw; repeat (destruct Hw' as [<-|Hw']); try destruct Hw';
      try congruence; vm_compute; discriminate.
Qed.

(** The first free vertex within tolerance is taken, which may leave none for a later vertex. *)
Definition seg1 : list belem := [BElem 1 [0; 1]]%Z.
Definition seg2 : list belem := [BElem 2 [10; 11]]%Z.
Definition seg1_x (v : Z) (d : nat) : Q := match d with O => if (v =? 0)%Z then 0%Q else (12 # 10)%Q | _ => 0%Q end.
Definition seg2_x (v : Z) (d : nat) : Q := match d with O => if (v =? 10)%Z then (1 # 2)%Q else (- (9 # 10))%Q | _ => 0%Q end.

Lemma greedy_fails : exists dim thr c1 c2 a1 a2 l1 l2 x1 x2 f,
  port_match dim thr l1 l2 a1 a2 x1 x2 f /\ build_port dim thr c1 c2 a1 a2 l1 l2 x1 x2 = Abort.
Proof.
  exists 2, 1%Q, 0%Z, 0%Z, 1%Z, 2%Z, seg1, seg2, seg1_x, seg2_x, (fun w => 11 - w)%Z. split; [|reflexivity].
  split; [exists 0; eexists; split; reflexivity|].
  split; [|split; [|split; [|split; [|split]]]].
  - intros w Hw. apply port_vertex_cases in Hw. simpl in Hw. split.
    + apply port_vertex_of. destruct Hw as [<-|[<-|[]]]; simpl; auto.
    + intros d Hd. repeat (destruct Hw as [<-|Hw]; [dims d|]). destruct Hw.
  - intros w w' _ _ E. lia.
  - intros v Hv. apply port_vertex_cases in Hv. simpl in Hv.
    exists (11 - v)%Z. split; [|lia]. apply port_vertex_of. destruct Hv as [<-|[<-|[]]]; simpl; auto.
  - exists 2. split; intros e He _; simpl in He; repeat (destruct He as [<-|He]; [reflexivity|]); destruct He.
  - reflexivity.
  - intros e2 He A. simpl in He. destruct He as [<-|[]].
    exists (BElem 1 [0; 1]%Z). simpl. split; auto. split; auto. apply perm_swap.
Qed.

(** Rotations of three-dimensional subdomains are not applied. *)
Local Open Scope R_scope.
Lemma rotation_lost : exists c x y,
  (* a quarter turn about the third axis takes (1,0,0) to (0,1,0) *)
  mc_t0 c = 0 /\ mc_t1 c = 0 /\ mc_t2 c = 0 /\ mc_r0 c = PI / 2 /\ mc_r1 c = PI / 2 /\ mc_r2 c = PI / 2 /\
  x = (1, 0, 0) /\ y = (1, 0, 0) /\ transform3d c x = y.
Proof.
  exists (MeshConfig 0 0 0 (PI / 2) (PI / 2) (PI / 2)), (1, 0, 0), (1, 0, 0).
  repeat (split; [reflexivity|]). simpl. repeat f_equal; ring.
Qed.

Example quarter_turn : transform2d (MeshConfig 3 0 0 (PI / 2) 0 0) (1, 0) = (3, 1).
Proof. unfold transform2d. simpl. rewrite sin_PI2, cos_PI2. f_equal; ring. Qed.
