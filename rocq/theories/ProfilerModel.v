(** Model of the time profiler (include/etc.hpp).  Definitions only.  Clock readings are integers. *)
From Coq Require Import ZArith List Bool String.
From Verif Require Import Outcome.
Import ListNotations.
Open Scope list_scope.

(** mfem [StopWatch] (external): accumulated real time and the reading at the last start. *)
Record watch := { w_acc : Z; w_start : Z }.

(** include/etc.hpp:45-58 members of [TimeProfiler]. *)
Record profiler := {
  indices : list (string * nat);
  timers : list watch;
  names : list string;
  calls : list Z;
  starts : list bool }.

Definition profiler0 : profiler := {| indices := []; timers := []; names := []; calls := []; starts := [] |}.

Fixpoint index_of (m : list (string * nat)) (n : string) : option nat :=
  match m with
  | [] => None
  | (n', i) :: m' => if String.eqb n' n then Some i else index_of m' n
  end.

(** include/etc.hpp:78-100 [Start]; [now] is the clock reading. *)
Definition start (p : profiler) (n : string) (now : Z) : outcome profiler :=
  let p := match index_of (indices p) n with
           | Some _ => p
           | None => {| indices := (n, List.length (timers p)) :: indices p;
                        timers := timers p ++ [{| w_acc := 0; w_start := 0 |}];
                        names := names p ++ [n]; calls := calls p ++ [0%Z]; starts := starts p ++ [false] |}
           end in
  match index_of (indices p) n with
  | None => Abort
  | Some idx =>
      let* st := oread (starts p) idx in
      if st then Abort else
      let* w := oread (timers p) idx in
      let* ws := owrite (timers p) idx {| w_acc := w_acc w; w_start := now |} in
      let* ss := owrite (starts p) idx true in
      Ok {| indices := indices p; timers := ws; names := names p; calls := calls p; starts := ss |}
  end.

(** include/etc.hpp:102-116 [Stop]. *)
Definition stop (p : profiler) (n : string) (now : Z) : outcome profiler :=
  match index_of (indices p) n with
  | None => Abort
  | Some idx =>
      let* st := oread (starts p) idx in
      if negb st then Abort else
      let* w := oread (timers p) idx in
      let* ws := owrite (timers p) idx {| w_acc := w_acc w + (now - w_start w); w_start := w_start w |} in
      let* c := oread (calls p) idx in
      let* cs := owrite (calls p) idx (c + 1)%Z in
      let* ss := owrite (starts p) idx false in
      Ok {| indices := indices p; timers := ws; names := names p; calls := cs; starts := ss |}
  end.

Inductive event := Start (n : string) (now : Z) | Stop (n : string) (now : Z).
Definition step (p : profiler) (e : event) : outcome profiler :=
  match e with Start n t => start p n t | Stop n t => stop p n t end.
Definition run (tr : list event) : outcome profiler := ofold step tr profiler0.

(** include/etc.hpp:118-148 [Print] on one process: one row (name, time, calls) per timer; a running timer fails
    the assertion.  Not modelled: the MPI reductions and the text layout. *)
Definition rows (p : profiler) : list (string * Z * Z) :=
  map (fun '(n, (w, c)) => (n, w_acc w, c)) (combine (names p) (combine (timers p) (calls p))).
Definition print (p : profiler) : outcome (list (string * Z * Z)) :=
  oassert (forallb negb (starts p)) (Ok (rows p)).
