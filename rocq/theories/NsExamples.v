(** Two subdomains with velocities of sizes 2 and 1 and one pressure each, in both block orderings. *)
From Coq Require Import Reals List Bool Lia Arith ZArith Lra.
From Verif Require Import Outcome LaBase LinalgModel LinalgSpec BlockVec TagsModel RomModel RomSpec IntegProofs NsModel NsSpec NsProofs NsPatternProofs.
Import ListNotations.
Local Open Scope R_scope.

Definition exn_rom (o : rom_order) : rom := {| rh_nsub := 2; rh_nvar := 2; rh_sep := true; rh_ord := o; rh_types := [0%nat; 0%nat]; rh_ncomp := 1; rh_nb := [2%nat; 1%nat] |}.
Definition exn_off : list nat := [0; 2; 3; 4; 5]%nat.
Definition exn_size (b : nat) : nat := nth b [2; 1; 1; 1]%nat 0%nat.
(** All entries are stored. *)
Definition exn_lin : smat := SMat 5 5 true (fun i j => Some (INR i - INR j)).
Lemma exn_offsets : offsets exn_off 4 exn_size.
Proof. split; [reflexivity|]. split; [reflexivity|]. intros i Hi. do 4 (destruct i; [reflexivity|]). lia. Qed.
Lemma exn_flow o : flow_rom (exn_rom o) exn_off exn_size exn_lin.
Proof. split; [cbn; lia|]. split; [reflexivity|]. split; [apply exn_offsets|]. split; reflexivity. Qed.
Lemma exn_takes o : takes_velocity (exn_rom o) exn_off exn_size exn_lin.
Proof. intros m i j _ _ _. right. reflexivity. Qed.
(** Under the ordering by subdomain every other block is a velocity, under the other one it is not unless the sizes happen to agree. *)
Lemma exn_alternate : alternate (exn_rom ByDomain) exn_size.
Proof. apply alternate_layout; auto. Qed.

Definition exn_T (n : nat) (c : R) : tensor := Tensor n n n (repeat c (n * n * n)).
Lemma exn_tensors : tensors_fit (exn_rom ByDomain) exn_size [exn_T 2 3; exn_T 1 5].
Proof.
  split; [reflexivity|]. intros m Hm. cbn in Hm. destruct m as [|[|m]]; [| |lia]; cbn; (split; [reflexivity|]; auto).
Qed.
Definition exn_x : vec := [1; 2; 7; 3; 8].
(** The velocity of the first subdomain enters through (1 + 2)^2, that of the second through 3^2; pressures only linearly. *)
Lemma exn_contraction : contraction (exn_T 2 3) (fun i => vnth exn_x (0 + i)) (fun i => vnth exn_x (0 + i)) 1 = 27 /\
  contraction (exn_T 1 5) (fun i => vnth exn_x (3 + i)) (fun i => vnth exn_x (3 + i)) 0 = 45.
Proof. split; unfold contraction, tget, vnth; cbn; lra. Qed.

(** A linear matrix with a diagonal only, as the reduced matrix of one basis function per variable would be. *)
Definition exn_h1 : rom := {| rh_nsub := 1; rh_nvar := 2; rh_sep := false; rh_ord := ByDomain; rh_types := [0%nat]; rh_ncomp := 1; rh_nb := [2%nat] |}.
Definition exn_diag : smat := SMat 2 2 true (fun i j => if (i =? j)%nat then Some 1 else None).
Lemma exn_flow1 : flow_rom exn_h1 [0; 2]%nat (fun _ => 2%nat) exn_diag.
Proof.
  split; [cbn; lia|]. split; [reflexivity|]. split; [|split; reflexivity].
  split; [reflexivity|]. split; [reflexivity|]. intros i Hi. cbn in Hi. destruct i; [reflexivity|lia].
Qed.
Lemma exn_tensors1 : tensors_fit exn_h1 (fun _ => 2%nat) [exn_T 2 1].
Proof. split; [reflexivity|]. intros m Hm. cbn in Hm. destruct m; [|lia]. cbn. split; [reflexivity|auto]. Qed.

(** Ordering by variable: velocities of sizes 1 and 2. *)
Definition exn_off2 : list nat := [0; 1; 3; 4; 5]%nat.
Definition exn_size2 (b : nat) : nat := nth b [1; 2; 1; 1]%nat 0%nat.
Lemma exn_flow2 : flow_rom (exn_rom ByVariable) exn_off2 exn_size2 exn_lin.
Proof.
  split; [cbn; lia|]. split; [reflexivity|]. split; [|split; reflexivity].
  split; [reflexivity|]. split; [reflexivity|]. intros i Hi. cbn in Hi. do 4 (destruct i; [reflexivity|]). lia.
Qed.
(** Sizes for which the orderings by variable works: both velocities as large as the pressure blocks. *)
Lemma exn_alternate_variable : alternate (exn_rom ByVariable) (fun _ => 3%nat).
Proof. intros _ m _. reflexivity. Qed.

(** An interface form over velocities of sizes 2 and 1: each side sees the other one. *)
Definition exn_itf (v : vec) : vec := [vnth v 2; 0; vnth v 0 * vnth v 0].
Definition exn_ig (v : vec) (m n : nat) : smat :=
  match m, n with
  | 0%nat, 0%nat => SMat 2 2 true (fun _ _ => None)
  | 0%nat, _ => SMat 2 1 true (fun i _ => if (i =? 0)%nat then Some 1 else None)
  | _, 0%nat => SMat 1 2 true (fun _ j => if (j =? 0)%nat then Some (2 * vnth v 0) else None)
  | _, _ => SMat 1 1 true (fun _ _ => None)
  end.
Lemma exn_blocks_fit v : blocks_fit (exn_rom ByDomain) exn_off exn_size exn_lin (exn_ig v).
Proof.
  intros m n Hm Hn. cbn in Hm, Hn. destruct m as [|[|m]]; [| |lia]; (destruct n as [|[|n]]; [| |lia]); (split; [reflexivity|]; split; [reflexivity|]; intros; right; reflexivity).
Qed.
Lemma exn_velocities : velocities (exn_rom ByDomain) exn_off exn_size exn_x = [1; 2; 3].
Proof. reflexivity. Qed.
Lemma exn_itf_derivative d : forall m k, (m < 2)%nat -> (k < vsize (exn_rom ByDomain) exn_size m)%nat ->
  has_derivative 3 exn_itf [1; 2; 3] (velocities (exn_rom ByDomain) exn_off exn_size d) (ustart (exn_rom ByDomain) exn_size m + k)
    (rsum 2 (fun j => rsum (vsize (exn_rom ByDomain) exn_size j) (fun q => sm_val (exn_ig [1; 2; 3] m j) k q * vnth d (vel (exn_rom ByDomain) exn_off j + q)))).
Proof.
  intros m k Hm Hk. unfold has_derivative. destruct m as [|[|m]]; [| |lia].
  - cbn in Hk. destruct k as [|[|k]]; [| |lia].
    + apply (IntegProofs.quadratic_derivative _ 3 _ 0). intros t. unfold ustart, exn_itf, vsize, vel, sm_val, exn_ig, vnth. cbn. unfold vnth. cbn. ring.
    + apply (IntegProofs.quadratic_derivative _ 0 _ 0). intros t. unfold ustart, exn_itf, vsize, vel, sm_val, exn_ig, vnth. cbn. unfold vnth. cbn. ring.
  - cbn in Hk. destruct k as [|k]; [|lia].
    apply (IntegProofs.quadratic_derivative _ 1 _ (vnth d 0 * vnth d 0)). intros t. unfold ustart, exn_itf, vsize, vel, sm_val, exn_ig, vnth. cbn. unfold vnth. cbn. ring.
Qed.
