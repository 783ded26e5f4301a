(** What the warnings should say. *)
From Coq Require Import List ZArith.
From Verif Require Import Outcome MbModel BcModel WarnModel.
Import ListNotations.

(** Every boundary of the domain is on some subdomain. *)
Definition covered (ms : list (list Z)) (gattr : list Z) : Prop := forall a, In a gattr -> exists attrs, In attrs ms /\ In a attrs.

(** The warning that there is no Dirichlet condition is given exactly when assembly imposes none; no other is given. *)
Definition truthful (ws : list warning) (ms : list (list Z)) (gattr : list Z) (types : list btype) (bdr : list (option coeff)) : Prop :=
  (In WNullBdr ws <-> weak_domain ms gattr types bdr = Ok []) /\ forall w, In w ws -> w = WNullBdr.
