(** Property theorems: snapshot store, port records, collection of files. *)
From Coq Require Import ZArith List String.
From Verif Require Import Outcome TagsModel TagsSpec SnapshotModel SnapshotSpec SnapshotProofs SnapshotCollect.
Import ListNotations.

(** C09 for any sequence of saves with arbitrary tag lists (one vector length per tag). *)
Theorem C09_store_returns_what_was_saved : forall (K : Type) (accepts : list K -> bool) dim l s,
  (forall t b, In (t, b) (saved_pairs l) -> List.length b = dim t) ->
  run_saves accepts l = Ok s ->
  forall t, look_up_snapshot s t = match saved l t with [] => Abort | _ :: _ => Ok (saved l t) end.
Proof. exact @saves_store. Qed.
Print Assumptions C09_store_returns_what_was_saved.

(** C09 for histories of solves as the solver saves them. *)
Theorem C09_solver_history_store : forall (K : Type) (accepts : list K -> bool) dim h s,
  same_dims h dim -> run_history accepts h = Ok s ->
  forall t, look_up_snapshot s t = match columns h t with [] => Abort | _ :: _ => Ok (columns h t) end.
Proof. exact @snapshot_store. Qed.
Print Assumptions C09_solver_history_store.

(** Histories as the solver produces them are saved without abort or undefined behaviour (unless libROM refuses a
    vector). *)
Theorem C09_solver_history_is_saved : forall (K : Type) (accepts : list K -> bool) dim vars h,
  proper_history vars h -> same_dims h dim ->
  (forall e b, In e h -> In b (ev_blocks e) -> accepts b = true) ->
  exists s, run_history accepts h = Ok s.
Proof. exact @history_progress. Qed.
Print Assumptions C09_solver_history_is_saved.

(** C10 *)
Theorem C10_port_records_designate_their_columns : forall (K : Type) (accepts : list K -> bool) dim h s,
  same_dims h dim -> run_history accepts h = Ok s ->
  forall t, match port_uses h t with
  | [] => look_up_port s t = Abort
  | _ :: _ => exists recs, look_up_port s t = Ok recs /\ Forall2 (record_ok h) recs (port_uses h t)
  end.
Proof. exact @port_store. Qed.
Print Assumptions C10_port_records_designate_their_columns.

(** C11: collecting the files of several runs gives the store of the concatenated history. *)
Theorem C11_collected_files : forall (K : Type) (accepts : list K -> bool) dim vars hs fs,
  plain_vars vars -> NoDup vars -> vars <> [] ->
  (forall h, In h hs -> proper_history vars h /\ same_dims h dim /\
     (forall e t b, In e h -> In (t, b) (event_blocks e) -> 0 < List.length b)) ->
  Forall2 (fun h f => run_and_write accepts h = Ok f) hs fs ->
  exists s, collect_files accepts fs = Ok s /\
    (forall t, look_up_snapshot s t = match columns (List.concat hs) t with
                                      | [] => Abort | _ :: _ => Ok (columns (List.concat hs) t) end) /\
    (forall t, match port_uses (List.concat hs) t with
               | [] => look_up_port s t = Abort
               | _ :: _ => exists recs, look_up_port s t = Ok recs /\
                             Forall2 (record_ok (List.concat hs)) recs (port_uses (List.concat hs) t)
               end).
Proof. exact @collected. Qed.
Print Assumptions C11_collected_files.
