(** One element in one dimension with a flipped degree of freedom; an operator with a block in the lower right corner. *)
From Coq Require Import Reals List Bool Lia Arith ZArith Lra.
From Verif Require Import Outcome HdfModel LaBase LinalgModel LinalgSpec BlockVec MbModel ItfModel ItfSpec EqpModel EqpSpec IntegModel IntegSpec IntegProofs NsTensorModel NsTensorSpec NsFomProofs.
Import ListNotations.
Local Open Scope R_scope.

Definition ext_p : qpt := Qpt 1 (fun _ => 1 / 2) (fun k _ => if (k =? 0)%nat then -1 else 1) (fun _ _ => 1) (fun _ _ => 1) 1 None None.
Definition ext_els : list celem := [CElem [0; -2]%Z 2 [ext_p]].
Lemma ext_fit : elements_fit 2 1 ext_els.
Proof.
  intros el [<-|[]]. split; [reflexivity|]. split.
  - intros d [<-|[<-|[]]]; cbn; lia.
  - intros p [<-|[]]. reflexivity.
Qed.
(** Basis functions (1, 0) and (1, 2), a third row that is not part of the space. *)
Definition ext_B : dmat := DMat 3 2 [1; 0; 9; 1; 2; 9].
Lemma ext_B_wf : dm_wf ext_B /\ (2 <= dm_h ext_B)%nat.
Proof. split; [unfold dm_wf; cbn; lia|cbn; lia]. Qed.
(** (w0 - w1)/2 * (-u1 - u0) * (v0 - v1)/2 *)
Lemma ext_convection w u v : convection 1 ext_els w u v = (w 0%nat - w 1%nat) / 2 * (- u 1%nat - u 0%nat) * ((v 0%nat - v 1%nat) / 2).
Proof. unfold convection, integral, field, deriv, dphys, on_dofs, dofs, dofn, vnth. cbn. change (Pos.to_nat 1) with 1%nat. cbn. field. Qed.

Definition ext_op (C : option fm) : nsop := NsOp [0; 1]%nat 2 (fun _ _ => 3) (fun _ _ => 5) (fun _ _ => 7) C.
Lemma ext_op_ok C : fom_ok (ext_op C) 1 (fun _ => 1%nat).
Proof.
  split; [|cbn; lia]. split; [reflexivity|]. split; [reflexivity|]. intros i Hi. destruct i; [reflexivity|lia].
Qed.
(** Forms whose gradients are exact. *)
Definition ext_hs (m : nat) (v : vec) : vec := [vnth v 0 * vnth v 0].
Definition ext_hg (m : nat) (v : vec) : fm := fun _ _ => 2 * vnth v 0.
Lemma ext_derivative x d m k : (k < 1)%nat -> derivable_pt_lim (fun t => vnth (ext_hs m (along 1 x d t)) k) 0 (rsum 1 (fun j => ext_hg m x k j * vnth d (0 + j))).
Proof.
  intros Hk. destruct k; [|lia]. apply (quadratic_derivative _ (vnth x 0 * vnth x 0) _ (vnth d 0 * vnth d 0)). intros t. cbn. unfold ext_hg, vnth. cbn. unfold vnth. ring.
Qed.
