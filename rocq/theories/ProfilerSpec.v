(** What a profile of a sequence of start/stop events is. *)
From Coq Require Import ZArith List String.
From Verif Require Import ProfilerModel.
Import ListNotations.
Open Scope list_scope.

Definition name_of (e : event) : string := match e with Start n _ => n | Stop n _ => n end.
Definition own (n : string) (tr : list event) : list event :=
  filter (fun e => String.eqb (name_of e) n) tr.

(** The events of [n] are the completed intervals [ivs], followed by a start at [a] if [op = Some a]. *)
Definition alternates (n : string) (tr : list event) (ivs : list (Z * Z)) (op : option Z) : Prop :=
  own n tr = flat_map (fun iv => [Start n (fst iv); Stop n (snd iv)]) ivs ++
             match op with Some a => [Start n a] | None => [] end.

Definition total (ivs : list (Z * Z)) : Z := fold_right (fun iv z => (snd iv - fst iv + z)%Z) 0%Z ivs.
