(** What the ownership of sample lists should guarantee. *)
From Coq Require Import List Bool Lia Arith ZArith.
From Verif Require Import Outcome EqpOwnModel.
Import ListNotations.
Local Open Scope nat_scope.

(** ** Forms on domains *)

(** Which forms exist after a script, and whether they are reference forms *)
Definition alive_step {A} (l : list (option bool)) (o : wop A) : list (option bool) :=
  match o with WNew r => l ++ [Some r] | WDelete f => upd l f None | _ => l end.
Definition alive {A} (ops : list (wop A)) : list (option bool) := fold_left alive_step ops [].

(** An operation uses forms that exist. *)
Definition on_alive {A} (l : list (option bool)) (o : wop A) : Prop :=
  match o with
  | WNew _ => True
  | WAdd f _ | WUpdate f _ _ _ | WDelete f => exists r, nth_error l f = Some (Some r)
  | WShare v _ _ r _ _ => (exists x, nth_error l v = Some (Some x)) /\ (exists x, nth_error l r = Some (Some x))
  end.
(** No form is used before it is created or after it is deleted. *)
Definition script {A} (ops : list (wop A)) : Prop := forall p o q, ops = p ++ o :: q -> on_alive (alive p) o.

(** The samples most recently given to an integrator of a form *)
Definition last_update {A} (ops : list (wop A)) (f : nat) (k : kind) (i : nat) : option A :=
  fold_left (fun acc o => match o with
    | WUpdate f' k' i' a => if (f' =? f) && kind_eqb k' k && (i' =? i) then Some a else acc
    | _ => acc end) ops None.

(** Where an integrator of a view was most recently pointed to *)
Definition last_share {A} (ops : list (wop A)) (v : nat) (k : kind) (i : nat) : option (nat * kind * nat) :=
  fold_left (fun acc o => match o with
    | WShare v' k' i' r kr ir => if (v' =? v) && kind_eqb k' k && (i' =? i) then Some (r, kr, ir) else acc
    | _ => acc end) ops None.

(** Operations of the two phases: setting up the reference forms, then using views of them *)
Definition no_share {A} (o : wop A) : Prop := match o with WShare _ _ _ _ _ _ => False | _ => True end.
Definition keeps_refs {A} (l : list (option bool)) (o : wop A) : Prop :=
  match o with
  | WUpdate _ _ _ _ => False
  | WDelete f => nth_error l f = Some (Some false)
  | WShare _ _ _ r _ _ => nth_error l r = Some (Some true)
  | _ => True
  end.
Definition phase2 {A} (pre ops : list (wop A)) : Prop := forall p o q, ops = p ++ o :: q -> keeps_refs (alive (pre ++ p)) o.

(** ** Forms on interfaces *)

Definition integrators {A} (ops : list (iop A)) : nat := List.length (filter (fun o => match o with IAdd => true | _ => false end) ops).

(** Reading a file asks for an integrator that exists. *)
Definition iscript {A} (ops : list (iop A)) : Prop :=
  forall p k file q, ops = p ++ ILoad k file :: q -> k < integrators p.

(** The samples most recently given to integrator [k] for ports of kind [t] *)
Definition last_samples {A} (ops : list (iop A)) (k t : nat) : option A :=
  fold_left (fun acc o => match o with
    | IUpdate i rp a => if (i =? k) && (rp =? t) then Some a else acc
    | ILoad i file => if i =? k then Some (file t) else acc
    | IAdd => acc end) ops None.
