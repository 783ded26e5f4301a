(** Concrete cases for the theorems of [TagsProperties].  Tests, not proofs. *)
From Coq Require Import ZArith List String Ascii.
From Verif Require Import TagsModel TagsSpec.
Import ListNotations.
Open Scope string_scope.

Definition pt (a b : string) (x y : Z) : port_tag := {| Mesh1 := a; Mesh2 := b; Attr1 := x; Attr2 := y |}.
Definition bt (a b : string) : basis_tag := {| comp := a; var := b |}.

Example port_order : port_tag_lt (pt "empty" "square" 2 4) (pt "empty" "square" 4 2) = true
                  /\ port_tag_lt (pt "empty" "square" 4 2) (pt "empty" "square" 2 4) = false
                  /\ port_tag_lt (pt "square" "empty" 1 1) (pt "empty" "square" 9 9) = false.
Proof. repeat split. Qed.

Example port_map :
  let m := map_set port_tag_lt (map_set port_tag_lt [] (pt "a" "b" 1 3) 0%nat) (pt "a" "b" 3 1) 1%nat in
  map_find port_tag_lt m (pt "a" "b" 1 3) = Some 0%nat /\ map_find port_tag_lt m (pt "a" "b" 3 1) = Some 1%nat
  /\ map_find port_tag_lt m (pt "b" "a" 1 3) = None.
Proof. repeat split. Qed.

Example basis_order : basis_tag_lt (bt "empty" "pres") (bt "empty" "vel") = true
                   /\ basis_tag_lt (bt "empty" "vel") (bt "circle" "vel") = false.
Proof. split; reflexivity. Qed.

Example printed : print_tag (bt "square_circle" "vel") = "square_circle_vel" /\ print_tag (bt "empty" "") = "empty".
Proof. split; reflexivity. Qed.
(** the hypotheses of the positive C08 theorems *)
Example plain_component : no_char "_"%char "dc"%string /\ ~ no_char "_"%char "square_circle".
Proof. split; simpl; [repeat split; discriminate|]. intros H. repeat (destruct H as [? H]; try congruence). Qed.
Example plain_variable : "vel" <> "" /\ no_char "_"%char "vel".
Proof. split; [discriminate|]. simpl. repeat split; discriminate. Qed.
