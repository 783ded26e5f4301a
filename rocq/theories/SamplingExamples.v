(** Concrete non-trivial cases meeting the hypotheses of the theorems in [SamplingProperties].  Tests, not proofs. *)
From Coq Require Import ZArith List Reals Lra Lia.
From Verif Require Import Outcome SamplingModel SamplingSpec.
Import ListNotations.
Open Scope Z_scope.

Example distribute_7_over_3 : distribute_samples 7 3 = Ok [0; 3; 5; 7].
Proof. reflexivity. Qed.
Example distribute_2_over_4 : distribute_samples 2 4 = Ok [0; 1; 2; 2; 2].
Proof. reflexivity. Qed.
Example distribute_no_process : distribute_samples 2 0 = UB.
Proof. reflexivity. Qed.

Example sizes_2_3_4 : set_param_space_sizes [2; 3; 4] = Ok 24.
Proof. reflexivity. Qed.
Example sizes_overflow : set_param_space_sizes [65536; 65536] = UB.
Proof. reflexivity. Qed.
Example sizes_nonpositive : set_param_space_sizes [2; 0] = Abort.
Proof. reflexivity. Qed.
Example grid_point : in_grid [2; 3; 4] [1; 2; 1].
Proof. repeat constructor; lia. Qed.
Example encode_grid_point : encode_index [2; 3; 4] 24 [1; 2; 1] = Ok 21.
Proof. reflexivity. Qed.
Example decode_grid_point : decode_index [2; 3; 4] 21 = Ok [1; 2; 1].
Proof. reflexivity. Qed.

Example random_index : random_decode_index 3 10 7 = Ok [7; 7; 7] /\ random_encode_index 3 10 [7; 7; 7] = Ok 7.
Proof. split; reflexivity. Qed.

Example integer_grid : map (get_integer 2 11 4) [0; 1; 2; 3] = [Ok 2; Ok 5; Ok 8; Ok 11].
Proof. reflexivity. Qed.
Example integer_grid_misses_max : map (get_integer 0 10 4) [0; 1; 2; 3] = [Ok 0; Ok 3; Ok 6; Ok 9].
Proof. reflexivity. Qed.

Example log_hypotheses : (0 < 1 <= 100)%R /\ 0 <= 2 < 3.
Proof. split; [split; lra | lia]. Qed.

(** A deterministic run with one process, and a random run in which the first solve of sample 1 fails. *)
Example base_run : generate_samples 4 3 1 0 BASE 10 (fun s c => s :: c) (fun _ => true) [(-1)]
                   = Finished [(0, 10); (1, 11); (2, 12)] [(-1)].
Proof. reflexivity. Qed.
Example random_run : generate_samples 5 3 1 0 RANDOM 10 (fun s c => s :: c)
                       (fun n => negb (Nat.eqb n 1)) [(-1)]
                     = Finished [(0, 10); (1, 11); (2, 12)] [(-1)].
Proof. reflexivity. Qed.
Example base_failure : generate_samples 5 3 1 0 BASE 10 (fun s c => s :: c)
                       (fun n => negb (Nat.eqb n 1)) [(-1)] = RunStopped.
Proof. reflexivity. Qed.
Example maximum_size_hypothesis : set_maximum_size 0 5 = Ok 5.
Proof. reflexivity. Qed.
