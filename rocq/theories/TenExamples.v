(** Two components, three subdomains, tensors of one and two basis functions. *)
From Coq Require Import ZArith List Bool String Lia.
From Verif Require Import Outcome HdfModel HdfSpec LaBase TenModel TenSpec.
Import ListNotations.
Local Open Scope nat_scope.
Local Open Scope string_scope.
Local Open Scope list_scope.

(** Built for the components "empty" and "square", used with their numbers exchanged. *)
Definition tx_build : setup := Setup ["empty"; "square"] [0; 1] true true false LevComponent NlTensor "rom".
Definition tx_use : setup := Setup ["square"; "empty"] [0; 1; 0] true true false LevComponent NlTensor "rom".
Definition tx_red (i : nat) : tensor Z :=
  match i with 0 => {| dt_i := 1; dt_j := 1; dt_k := 1; dt_data := [5%Z] |}
  | _ => {| dt_i := 2; dt_j := 2; dt_k := 2; dt_data := [1; 2; 3; 4; 5; 6; 7; 8]%Z |} end.
Definition tx_disk : disk Z nat := fun _ => None.

Lemma tx_good i : good_tensor (tx_red i).
Proof. destruct i; unfold good_tensor, tensor_ok; cbn; lia. Qed.
Lemma tx_by : by_tensors tx_build /\ by_tensors tx_use.
Proof. unfold by_tensors. cbn. auto. Qed.
Lemma tx_nodup : NoDup (s_names tx_build).
Proof. repeat constructor; cbn; intuition congruence. Qed.

(** Computed. *)
Definition tx_saved : disk Z nat := Eval vm_compute in
  match run tx_build tx_red tx_red 7 (build_component "rom") tx_disk with Ok (_, d) => d | _ => tx_disk end.
Example tx_loaded : exists s, run tx_use tx_red tx_red 7 (run_component "rom") tx_saved = Ok (s, tx_saved) /\
  solve_tensors tx_use s = Ok [tx_red 1; tx_red 0; tx_red 1].
Proof. eexists. split; vm_compute; reflexivity. Qed.
(** Every allocation is released. *)
Example tx_freed : exists s, run tx_use tx_red tx_red 7 (run_component "rom") tx_saved = Ok (s, tx_saved) /\
  destroy tx_use s = Ok [true; true].
Proof. eexists. split; vm_compute; reflexivity. Qed.

Definition tx_other (names : list string) (l : blevel) (n : nlhand) (lf rom : bool) : setup :=
  Setup names [0; 1; 0] true rom lf l n "rom".
Example tx_missing : run (tx_other ["square"; "round"] LevComponent NlTensor false true) tx_red tx_red 7 (run_component "rom") tx_saved = Abort.
Proof. vm_compute. reflexivity. Qed.

(** Hyper-reduced forms with the Lax-Friedrichs flux: interface form, two component forms, three subdomain forms. *)
Example tx_eqp : exists s d, run (tx_other ["square"; "empty"] LevComponent NlEqp true true) tx_red tx_red 7 (run_component "rom") tx_disk = Ok (s, d) /\
  destroy (tx_other ["square"; "empty"] LevComponent NlEqp true true) s = Ok [true; true; true; true; true; true].
Proof. eexists. eexists. split; vm_compute; reflexivity. Qed.

(** The global operator. *)
Definition tx_glob : setup := Setup ["square"; "empty"] [0; 1; 0] true true false LevGlobal NlTensor "rom".
Example tx_global : exists s d, run tx_glob tx_red tx_red 7 (build_global "rom.h5") tx_disk = Ok (s, d) /\
  exists s2, run tx_glob tx_red tx_red 7 (run_global "rom.h5") d = Ok (s2, d) /\ v_mat s2 = Some 7 /\
  solve_tensors tx_glob s2 = Ok [tx_red 0; tx_red 1; tx_red 2] /\ destroy tx_glob s = Ok [true; true; true].
Proof. eexists. eexists. split; [vm_compute; reflexivity|]. eexists. split; [vm_compute; reflexivity|]. split; [|split]; vm_compute; reflexivity. Qed.
