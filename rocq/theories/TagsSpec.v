(** What an ordering usable as a map key has to be, and what a finite map is. *)
From Coq Require Import List String Ascii.

Record strict_total_order {A : Type} (lt : A -> A -> bool) : Prop := {
  sto_irrefl : forall a, lt a a = false;
  sto_trans : forall a b c, lt a b = true -> lt b c = true -> lt a c = true;
  sto_total : forall a b, lt a b = false -> lt b a = false -> a = b }.

(** A character that does not occur in a string. *)
Fixpoint no_char (c : ascii) (s : string) : Prop :=
  match s with
  | EmptyString => True
  | String x s' => x <> c /\ no_char c s'
  end.
