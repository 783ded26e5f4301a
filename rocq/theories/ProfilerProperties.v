(** Property theorems: time profiler. *)
From Coq Require Import ZArith List String.
From Verif Require Import Outcome ProfilerModel ProfilerSpec ProfilerProofs.
Import ListNotations.

(** C15: the events of every name must alternate start/stop; everything else stops the program. *)
Theorem C15_protocol : forall tr,
  ((exists p, run tr = Ok p) <-> (forall n, exists ivs op, alternates n tr ivs op)) /\
  (~ (forall n, exists ivs op, alternates n tr ivs op) -> run tr = Abort).
Proof. exact (fun tr => conj (run_iff tr) (run_rejects tr)). Qed.
Print Assumptions C15_protocol.

(** C15: the report has one row per name that completed an interval, with the number and the total duration of its
    intervals; it is refused exactly when some timer is running. *)
Theorem C15_report : forall tr p, run tr = Ok p ->
  ((forall n, exists ivs, alternates n tr ivs None) <-> exists rs, print p = Ok rs) /\
  (forall rs, print p = Ok rs -> NoDup (map (fun r => fst (fst r)) rs) /\
     forall n t c, In (n, t, c) rs <->
       exists ivs, alternates n tr ivs None /\ ivs <> [] /\ t = total ivs /\ c = Z.of_nat (List.length ivs)).
Proof. exact print_rows. Qed.
Print Assumptions C15_report.
