(** Concrete cases for the theorems of [ProfilerProperties].  Tests, not proofs. *)
From Coq Require Import ZArith List Bool String.
From Verif Require Import Outcome ProfilerModel ProfilerSpec.
Import ListNotations.
Open Scope string_scope.
Open Scope Z_scope.

(** Interleaved timers. *)
Definition tr := [Start "solve" 10; Start "setup" 11; Stop "solve" 15; Start "solve" 20; Stop "setup" 21; Stop "solve" 27].
Example tr_rows : (let* p := run tr in print p) = Ok [("solve", 12, 2); ("setup", 10, 1)].
Proof. reflexivity. Qed.
Example tr_alternates : alternates "solve" tr [(10, 15); (20, 27)] None.
Proof. reflexivity. Qed.
Example twice_started : run [Start "a" 0; Start "a" 1] = Abort.
Proof. reflexivity. Qed.
Example stop_unknown : run [Stop "a" 0] = Abort.
Proof. reflexivity. Qed.
Example still_running : (let* p := run [Start "a" 0] in print p) = Abort.
Proof. reflexivity. Qed.
