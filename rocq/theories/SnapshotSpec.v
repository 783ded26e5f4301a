(** What a store of snapshots must contain after a history of saves.  Only tags, ports and events are taken
    from the model; none of its functions except the tag of a block. *)
From Coq Require Import ZArith List String Ascii.
From Verif Require Import TagsModel TagsSpec SnapshotModel.
Import ListNotations.

Definition tag_dec (a b : basis_tag) : {a = b} + {a <> b}.
Proof. decide equality; apply string_dec. Defined.
Definition port_tag_dec (a b : port_tag) : {a = b} + {a <> b}.
Proof. decide equality; first [apply string_dec | apply Z.eq_dec]. Defined.

(** Variable names for which printed tags cannot collide: bases not separated by variable, or names without '_'
    (the solvers use "solution", "vel", "pres"). *)
Definition plain_vars (vars : list string) : Prop :=
  vars = [EmptyString] \/ (forall x, In x vars -> x <> EmptyString /\ no_char "_"%char x).

Section Spec.
  Context {K : Type}.

  (** The tag of the block for subdomain [m], variable [v] of an event is (component name of m, name of v); the
      block itself is number [v + (number of variables) * m]. *)
  Definition block_tag (e : event K) (m v : nat) : option basis_tag :=
    match nth_error (t_names (ev_topo e)) m, nth_error (ev_vars e) v with
    | Some c, Some x => Some {| comp := c; var := x |}
    | _, _ => None
    end.
  Definition block (e : event K) (m v : nat) : option (list K) :=
    nth_error (ev_blocks e) (v + List.length (ev_vars e) * m).

  (** All blocks of an event with their tags, subdomain by subdomain. *)
  Definition event_blocks (e : event K) : list (basis_tag * list K) :=
    combine (flat_map (fun c => map (fun x => {| comp := c; var := x |}) (ev_vars e)) (t_names (ev_topo e)))
            (ev_blocks e).

  (** The snapshots that were saved with tag [t], oldest first. *)
  Definition columns (h : list (event K)) (t : basis_tag) : list (list K) :=
    map snd (filter (fun p => if tag_dec (fst p) t then true else false) (flat_map event_blocks h)).

  (** The same for a sequence of saves with explicit tags. *)
  Definition saved_pairs (l : list (list basis_tag * list (list K))) : list (basis_tag * list K) :=
    flat_map (fun c => combine (fst c) (snd c)) l.
  Definition saved (l : list (list basis_tag * list (list K))) (t : basis_tag) : list (list K) :=
    map snd (filter (fun p => if tag_dec (fst p) t then true else false) (saved_pairs l)).

  (** The port tag of a port of an event. *)
  Definition port_tag_of (e : event K) (p : port_info) : option port_tag :=
    match nth_error (t_names (ev_topo e)) (pm1 p), nth_error (t_names (ev_topo e)) (pm2 p) with
    | Some c1, Some c2 => Some {| Mesh1 := c1; Mesh2 := c2; Attr1 := pa1 p; Attr2 := pa2 p |}
    | _, _ => None
    end.

  (** Every use of port tag [t] in a history, oldest first. *)
  Definition port_uses (h : list (event K)) (t : port_tag) : list (event K * port_info) :=
    filter (fun u => match port_tag_of (fst u) (snd u) with
                     | Some t' => if port_tag_dec t' t then true else false
                     | None => false
                     end)
           (flat_map (fun e => map (pair e) (t_ports (ev_topo e))) h).

  (** The column number [c] designates the block of subdomain [m] of event [e], for every variable. *)
  Definition designates (h : list (event K)) (c : nat) (e : event K) (m : nat) : Prop :=
    forall v, (v < List.length (ev_vars e))%nat -> exists t b,
      block_tag e m v = Some t /\ block e m v = Some b /\ nth_error (columns h t) c = Some b.

  Definition record_ok (h : list (event K)) (r : nat * nat) (u : event K * port_info) : Prop :=
    designates h (fst r) (fst u) (pm1 (snd u)) /\ designates h (snd r) (fst u) (pm2 (snd u)).

  (** Hypotheses on histories. *)

  (** Blocks saved with the same tag have the same length (same finite element space). *)
  Definition same_dims (h : list (event K)) (dim : basis_tag -> nat) : Prop :=
    forall t b, In (t, b) (flat_map event_blocks h) -> List.length b = dim t.

  (** A history as the solver produces it: one block per (subdomain, variable), at least one subdomain and
      variable, the same distinct variables in every event, ports between existing subdomains. *)
  Record proper_history (vars : list string) (h : list (event K)) : Prop := {
    ph_vars : NoDup vars /\ vars <> [];
    ph_event : forall e, In e h ->
      ev_vars e = vars /\ t_names (ev_topo e) <> [] /\
      List.length (ev_blocks e) = (List.length (t_names (ev_topo e)) * List.length vars)%nat /\
      forall p, In p (t_ports (ev_topo e)) ->
        (pm1 p < List.length (t_names (ev_topo e)))%nat /\ (pm2 p < List.length (t_names (ev_topo e)))%nat }.
End Spec.
