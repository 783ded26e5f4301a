(** Concrete cases for the theorems on the block smoothers. *)
From Coq Require Import Reals List Bool Lia Arith ZArith Lra.
From Verif Require Import Outcome ListLemmas LaBase BlockVec MbModel MbSpec SmoothModel SmoothSpec SmoothProofs.
Import ListNotations.
Local Open Scope nat_scope.

(** Two blocks, of sizes 1 and 2. *)
Definition xs_size (i : nat) : nat := i + 1.
Definition xs_off : list nat := [0; 1; 3].
Definition xs_d0 : fmat := FMat 1 1 (fun _ _ => 2%R).
Definition xs_d1 : fmat := FMat 2 2 (fun p q => if p <=? q then 1%R else 0%R).
Definition xs_A : blockmat := fun i j =>
  match i, j with
  | 0, 0 => Some xs_d0
  | 0, 1 => Some (FMat 1 2 (fun _ q => if q =? 0 then 3%R else 0%R))
  | 1, 1 => Some xs_d1
  | _, _ => None
  end.
Definition xs_inv (M : fmat) : outcome fmat :=
  if fm_h M =? 1 then Ok (FMat 1 1 (fun _ _ => (/ fm_val M 0 0)%R))
  else Ok (FMat 2 2 (fun p q => if p =? q then 1%R else if p =? 0 then (-1)%R else 0%R)).

Example xs_fits : bm_fits 2 xs_size xs_A.
Proof.
  split.
  - intros [|[|i]] [|[|j]] X Hi Hj E; try lia; cbn in E; try discriminate; injection E as <-; split; reflexivity.
  - intros [|[|i]] Hi; try lia; discriminate.
Qed.
Example xs_offsets : offsets xs_off 2 xs_size.
Proof. split; [reflexivity|]. split; [reflexivity|]. intros [|[|i]] H; try lia; reflexivity. Qed.
Example xs_inverts : inverts xs_inv 2 xs_size xs_A.
Proof.
  intros [|[|i]] M Hi E; try lia; cbn in E; injection E as <-; eexists; (split; [reflexivity|]); (split; [reflexivity|]); (split; [reflexivity|]);
    split; intros p q Hp Hq; cbn [xs_size Nat.add] in Hp, Hq.
  - destruct p; [|lia]. destruct q; [|lia]. cbn. lra.
  - destruct p; [|lia]. destruct q; [|lia]. cbn. lra.
  - destruct p as [|[|p]]; destruct q as [|[|q]]; try lia; cbn; lra.
  - destruct p as [|[|p]]; destruct q as [|[|q]]; try lia; cbn; lra.
Qed.

(** A solution of the system, so [C48_solution_kept] applies. *)
Example xs_solves : bm_solves 2 xs_size xs_off xs_A [5%R; 3%R; 2%R] [1%R; 1%R; 2%R].
Proof. intros [|[|i]] [|[|k]] Hi Hk; try lia; unfold xs_size in Hk; try lia; unfold block_row, ent, vnth; cbn; lra. Qed.
Example xs_made : exists s, make_smoother xs_inv xs_A xs_off xs_off = Ok s.
Proof. eexists. reflexivity. Qed.
