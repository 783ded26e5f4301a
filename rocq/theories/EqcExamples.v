(** Concrete cases for the positions of quadrature points. *)
From Coq Require Import ZArith List Bool String Ascii Reals Lia.
From Verif Require Import Outcome HdfModel HdfSpec EqcModel EqcSpec EqcProofs.
Import ListNotations.
Open Scope list_scope.

(** Two components of one and two elements, with integrators of four points; element [e], point [p] is at (e, p, 7). *)
Definition xq_s1 : list (sinfo R) := [{| si_el := 0; si_qp := 3; si_qw := 1%R |}].
Definition xq_s2 : list (sinfo R) := [{| si_el := 1; si_qp := 2; si_qw := 1%R |}; {| si_el := 0; si_qp := 1; si_qw := 2%R |}].
Definition xq_pos (dim : nat) (e p : Z) : list R := firstn dim [IZR e; IZR p; 7%R].
Definition xq_form dim nel (s : list (sinfo R)) : qform := QForm nel (xq_pos dim) [QInteg (Some 4) (Some s)].
Definition xq_mem (x : R) (c i : nat) : list R := [x; x; x].

Example xq_trained : forall dim, dim <= 3 -> Forall2 (trained dim) [xq_form dim 1 xq_s1; xq_form dim 2 xq_s2] [xq_s1; xq_s2].
Proof.
  intros dim Hd. repeat constructor; try discriminate; try (eexists; exists [], 4; split; [reflexivity|]; split; [reflexivity|]; split; [reflexivity|];
    intros e H; repeat (destruct H as [<-|H]; [cbn; lia|]); destruct H).
  all: intros el qp; unfold xq_form, xq_pos; cbn [q_pos]; rewrite firstn_length; cbn; lia.
Qed.

Example xq_names : NoDup ["square"; "circle"]%string.
Proof. repeat constructor; cbn; intuition discriminate. Qed.

(** In the plane: the tables of the second component with two contents of the memory. *)
Example xq_plane x : exists file m,
  save_coords 2 0 true false false (xq_mem x) ["square"; "circle"]%string (map Some [xq_form 2 1 xq_s1; xq_form 2 2 xq_s2]) = Ok (Some file) /\
  table file "circle" = Ok m /\ dense_at m 0 0 = Some 1%R /\ dense_at m 0 1 = Some 2%R /\ dense_at m 0 2 = Some x.
Proof.
  destruct (save_coords_ok 2 false false (xq_mem x) ["square"; "circle"]%string [xq_form 2 1 xq_s1; xq_form 2 2 xq_s2] [xq_s1; xq_s2]) as (file & E & _ & H & _);
    auto using xq_names, xq_trained.
  destruct (H 1 _ _ _ eq_refl eq_refl eq_refl) as (m & Em & (_ & _ & Hp) & Hr). exists file, m. split; auto. split; auto.
  rewrite (Hp 0 0 _ eq_refl), (Hp 0 1 _ eq_refl), (Hr 0 2) by (cbn; lia). auto.
Qed.

Example xq_space x : exists file m,
  save_coords 3 0 true true false (xq_mem x) ["square"; "circle"]%string (map Some [xq_form 3 1 xq_s1; xq_form 3 2 xq_s2]) = Ok (Some file) /\
  count file = Ok 2%Z /\ table file "circle" = Ok m /\ dm_h m = 2 /\ dense_at m 1 0 = Some 0%R /\ dense_at m 1 1 = Some 1%R /\ dense_at m 1 2 = Some 7%R.
Proof.
  destruct (save_coords_ok 3 true false (xq_mem x) ["square"; "circle"]%string [xq_form 3 1 xq_s1; xq_form 3 2 xq_s2] [xq_s1; xq_s2]) as (file & E & Ec & H & _);
    auto using xq_names, xq_trained.
  destruct (H 1 _ _ _ eq_refl eq_refl eq_refl) as (m & Em & (Hh & _ & Hp) & _). exists file, m. split; auto. split; auto. split; auto. split; auto.
  rewrite (Hp 1 0 _ eq_refl), (Hp 1 1 _ eq_refl), (Hp 1 2 _ eq_refl) by (cbn; lia). auto.
Qed.

(** A rule without samples. *)
Example xq_empty : save_coords 3 0 true false false (xq_mem 0) ["square"]%string [Some (xq_form 3 1 [])] = UB.
Proof. reflexivity. Qed.
