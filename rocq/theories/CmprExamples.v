(** Two subdomains with a velocity of two components and a pressure: cases that meet the hypotheses of C139. *)
From Coq Require Import Reals List Bool Lia Arith String Lra.
From Verif Require Import Outcome LaBase BlockVec TagsModel SnapshotModel MbModel MbSpec MbVecProofs CmprModel CmprSpec CmprProofs CmprProperties.
Import ListNotations.
Local Open Scope nat_scope.

Definition ex_size (m v : nat) : nat := if v =? 0 then 2 else 1.
Definition ex_u : bvec := BVec [0; 2; 3; 5; 6] [1; 2; 3; 4; 5; 6]%R.
Definition ex_t : bvec := BVec [0; 2; 3; 5; 6] [2; 4; 6; 8; 10; 12]%R.
Definition ex_fes (k : nat) : fspace :=
  if Nat.even k then {| fs_np := 1; fs_w := fun _ => 1%R; fs_vdim := 2; fs_nd := 2; fs_shape := fun _ d i => if d =? i then 1%R else 0%R |}
  else {| fs_np := 1; fs_w := fun _ => 1%R; fs_vdim := 1; fs_nd := 1; fs_shape := fun _ _ _ => 1%R |}.

Lemma two (P : nat -> Prop) : P 0 -> P 1 -> forall v, v < 2 -> P v.
Proof. intros A B [|[|v]] H; auto; lia. Qed.

Example ex_shaped d : List.length d = 6 -> sub_shaped 2 2 ex_size (BVec [0; 2; 3; 5; 6] d).
Proof.
  intros L. exists (fun i => if Nat.even i then 2 else 1). split.
  - split; [reflexivity|]. split; [reflexivity|]. split; [|exact L].
    intros [|[|[|[|i]]]] Hi; try reflexivity. lia.
  - intros [|[|m]] [|[|v]] Hm Hv; try lia; reflexivity.
Qed.

Example ex_spaces : spaces_ok 2 2 ex_size ex_fes.
Proof.
  intros [|[|m]] [|[|v]] Hm Hv; try lia; cbn; split; auto; split; try lia; intros; lra.
Qed.

Example ex_positive : forall v, v < 2 -> (0 < total_square 2 ex_fes 2 v (fun m v i => bentry ex_u (by_sub 2 m v) i))%R.
Proof. apply two; unfold total_square, square_integral, bentry, vnth; cbn; lra. Qed.

(** The test solution is twice the solution: the error is 1 in both variables. *)
Example ex_compare : exists r f, compare_solution 2 2 ex_fes true (Some [[7]; [8]; []; [9]]%R) ex_u ex_t = Ok (r, f) /\
  forall v, v < 2 -> vnth r v = 1%R.
Proof.
  assert (Su : sub_shaped 2 2 ex_size ex_u) by (apply ex_shaped; reflexivity).
  assert (St : sub_shaped 2 2 ex_size ex_t) by (apply ex_shaped; reflexivity).
  assert (HF : true = true -> exists es, Some [[7]; [8]; []; [9]]%R = Some es /\ List.length es = 2 * 2) by (intros _; eexists; split; reflexivity).
  destruct (C139_error 2 2 ex_size ex_fes true _ ex_u ex_t Su St ex_spaces HF) as (r & f & E & _). exists r, f. split; [exact E|].
  intros v Hv. rewrite <- (Rabs_R1). apply (C139_scaled 2 2 ex_size ex_fes true _ ex_u ex_t 1 r f Su St ex_spaces HF); auto.
  - intros [|[|m]] [|[|v0]] [|[|k]] Hm Hv0 Hk; cbn in Hk; try lia; unfold bentry, vnth; cbn; lra.
  - apply ex_positive, Hv.
Qed.

(** One variable fewer is refused. *)
Example ex_refused : copy_solution ex_u (BVec [0; 2; 5; 6] [1; 2; 3; 4; 5; 6]%R) = Abort.
Proof. reflexivity. Qed.
Example ex_refused_size : copy_solution ex_u (BVec [0; 2; 4; 5; 6] [1; 2; 3; 4; 5; 6]%R) = Abort.
Proof. reflexivity. Qed.

Example ex_snapshots : prepare_snapshots true {| t_names := ["pipe"; "joint"]%string; t_ports := [] |} ["vel"; "pres"]%string
    [0; 2; 3; 5; 6] [0; 3; 6] ex_u =
  Ok ([[1; 2]; [3]; [4; 5]; [6]]%R,
      [{| comp := "pipe"; var := "vel" |}; {| comp := "pipe"; var := "pres" |}; {| comp := "joint"; var := "vel" |}; {| comp := "joint"; var := "pres" |}]).
Proof. reflexivity. Qed.
Example ex_unified : prepare_snapshots false {| t_names := ["pipe"; "joint"]%string; t_ports := [] |} ["vel"; "pres"]%string
    [0; 2; 3; 5; 6] [0; 3; 6] ex_u =
  Ok ([[1; 2; 3]; [4; 5; 6]]%R, [{| comp := "pipe"; var := "" |}; {| comp := "joint"; var := "" |}]).
Proof. reflexivity. Qed.
