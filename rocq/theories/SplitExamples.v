(** A mesh of two quadrilaterals and two triangles, split in two. *)
From Coq Require Import ZArith List Bool Lia Reals String Sorting.Sorted.
From Verif Require Import Outcome TopoModel LaBase SplitModel SplitSpec SplitProofs SplitMapProofs SplitTopProofs.
Import ListNotations.
Local Open Scope nat_scope.

(** A check of [two_sided]. *)
Lemma two_check els : forallb (fun u => List.length (uses (side_uses els) (snd u)) <=? 2) (side_uses els) = true -> two_sided els.
Proof.
  intros C a b e1 l1 e2 l2 e3 l3 H1 H2 H3. destruct (on_use _ _ _ _ _ H1) as (q1 & U1), (on_use _ _ _ _ _ H2) as (q2 & U2), (on_use _ _ _ _ _ H3) as (q3 & U3).
  pose proof U1 as K. apply filter_In in K as (K & S). cbn [snd] in S. rewrite forallb_forall in C. specialize (C _ K). cbn [snd] in C. apply Nat.leb_le in C. rewrite (uses_same _ _ _ S) in C.
  destruct (uses (side_uses els) (a, b)) as [|x [|y [|? ?]]]; cbn in C; try lia; cbn in U1, U2, U3; intuition congruence.
Qed.

Definition sx_mesh : mesh2 := Mesh2
  [Elem 1 [0; 1; 4; 3]; Elem 2 [5; 4; 1; 2]; Elem 1 [3; 4; 6]; Elem 2 [4; 6; 5]]
  [(0, 1, 1%Z); (1, 2, 1%Z); (2, 5, 2%Z); (5, 6, 3%Z); (6, 3, 3%Z); (3, 0, 4%Z)].

Lemma sx_ok : mesh_ok sx_mesh.
Proof.
  split.
  - intros x H. cbn in H. intuition (subst; cbn; auto).
  - intros x H. cbn in H. destruct H as [<-|[<-|[<-|[<-|[]]]]]; cbn; repeat constructor; cbn; intuition lia.
  - intros x H. cbn in H. destruct H as [<-|[<-|[<-|[<-|[]]]]]; cbn; lia.
  - apply two_check. vm_compute. reflexivity.
  - intros a b z H. cbn in H. assert (K : forall e l, In (e, l, (a, b)) (side_uses (m_elems sx_mesh)) \/ In (e, l, (b, a)) (side_uses (m_elems sx_mesh)) -> exists e l, side_on (m_elems sx_mesh) e l a b).
    { intros e l [Q|Q]; apply side_use in Q; exists e, l; [left|right]; auto. }
    destruct H as [H|[H|[H|[H|[H|[H|[]]]]]]]; injection H as <- <- <-; (split; [lia|]).
    + apply (K 0 0). left. cbn. auto 20.
    + apply (K 1 2). left. cbn. auto 20.
    + apply (K 1 3). left. cbn. auto 20.
    + apply (K 3 1). right. cbn. auto 20.
    + apply (K 2 2). left. cbn. auto 20.
    + apply (K 0 3). left. cbn. auto 20.
  - discriminate.
Qed.

(** The two shared edges: 4-1 (run through in opposite directions) and 4-6 (in the same direction). *)
Example sx_split : exists h, build_handler "interior_penalty" sx_mesh sx_mesh = Ok h /\
  map sm_pel (h_subs h) = [[0; 2]; [1; 3]] /\ map sm_bdr (h_subs h) = [[0; 1; 3; 4; 5]; [1; 2; 3; 4; 5]] /\
  bs_ports (h_st h) = [PortInfo 6 0 1 6 6] /\ bs_infos (h_st h) = [[ItfInfo 1 0 64 65; ItfInfo 3 3 64 0]] /\
  bs_attrs (h_st h) = [[1; 6; 4; 6; 3]; [6; 1; 2; 6; 3]]%Z.
Proof. vm_compute. eexists. split; [reflexivity|]. repeat split. Qed.

Example sx_one : exists h, build_handler "none" sx_mesh sx_mesh = Ok h /\ map sm_pel (h_subs h) = [[0; 1; 2; 3]] /\ bs_ports (h_st h) = [].
Proof. vm_compute. eexists. split; [reflexivity|]. repeat split. Qed.

(** Fields of two variables. *)
Example sx_transfer : exists h, build_handler "interior_penalty" sx_mesh sx_mesh = Ok h /\
  transfer_to_global (h_subs h) [[10; 12]; [20; 22]; [11; 13]; [21; 23]] [[0; 0; 0; 0]; [0; 0; 0; 0]] 2 = Ok [[10; 11; 12; 13]; [20; 21; 22; 23]].
Proof. vm_compute. eexists. split; reflexivity. Qed.

(** A mesh whose attributes leave a gap: the second subdomain has no element. *)
Example sx_gap : exists h, build_handler "interior_penalty" (Mesh2 [Elem 1 [0; 1; 4; 3]; Elem 3 [5; 4; 1; 2]] [(0, 1, 1%Z)]) (Mesh2 [Elem 1 [0; 1; 4; 3]; Elem 3 [5; 4; 1; 2]] [(0, 1, 1%Z)]) = Ok h /\
  map sm_pel (h_subs h) = [[0]; []; [1]].
Proof. vm_compute. eexists. split; reflexivity. Qed.
