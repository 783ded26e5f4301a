(** A concrete history meeting the hypotheses of the theorems in [SnapshotProperties].  Tests, not proofs. *)
From Coq Require Import ZArith List String Bool Lia.
From Verif Require Import Outcome TagsModel TagsSpec SnapshotModel SnapshotSpec.
Import ListNotations.
Open Scope string_scope.
Open Scope list_scope.

Definition acc (v : list nat) : bool := existsb (fun x => negb (x =? 0)%nat) v.  (* refuses the zero vector *)
Definition vp := ["vel"; "pres"].
Definition bt (a b : string) : basis_tag := {| comp := a; var := b |}.
Definition pt (a b : string) (x y : Z) : port_tag := {| Mesh1 := a; Mesh2 := b; Attr1 := x; Attr2 := y |}.

(** Three subdomains, two of them instances of component "a"; two ports. *)
Definition topo3 := {| t_names := ["a"; "b"; "a"];
  t_ports := [{| pm1 := 0; pm2 := 1; pa1 := 2; pa2 := 4 |}; {| pm1 := 2; pm2 := 1; pa1 := 2; pa2 := 4 |}]%Z |}.
Definition topo2 := {| t_names := ["b"; "a"]; t_ports := [{| pm1 := 1; pm2 := 0; pa1 := 2; pa2 := 4 |}]%Z |}.
Definition ev1 : event nat := {| ev_topo := topo3; ev_vars := vp; ev_blocks := [[1;1];[2];[3;3];[4];[5;5];[6]] |}.
Definition ev2 : event nat := {| ev_topo := topo2; ev_vars := vp; ev_blocks := [[7;7];[8];[9;9];[10]] |}.
Definition dims (t : basis_tag) : nat := if String.eqb (var t) "vel" then 2 else 1.

Example history_proper : proper_history vp [ev1; ev2].
Proof.
  constructor.
  - split; [|discriminate]. repeat constructor; simpl; intuition discriminate.
  - intros e [<-|[<-|[]]]; (split; [reflexivity|split; [discriminate|split; [reflexivity|]]]); simpl;
      intros p H; repeat (destruct H as [<-|H]; [simpl; lia|]); destruct H.
Qed.
Example history_dims : same_dims [ev1; ev2] dims.
Proof. intros t b H. simpl in H. repeat (destruct H as [H|H]; [inversion H; reflexivity|]). destruct H. Qed.

Definition store := run_history acc [ev1; ev2].
Example snapshots_of_a : (let* s := store in look_up_snapshot s (bt "a" "vel")) = Ok [[1;1];[5;5];[9;9]].
Proof. reflexivity. Qed.
Example snapshots_of_b : (let* s := store in look_up_snapshot s (bt "b" "pres")) = Ok [[4];[8]].
Proof. reflexivity. Qed.
Example snapshots_unknown : (let* s := store in look_up_snapshot s (bt "c" "pres")) = Abort.
Proof. reflexivity. Qed.
Example port_records : (let* s := store in look_up_port s (pt "a" "b" 2 4)) = Ok [(0,0);(1,0);(2,1)].
Proof. reflexivity. Qed.
Example refused_sample : run_history acc [{| ev_topo := topo2; ev_vars := vp; ev_blocks := [[0;0];[8];[9;9];[10]] |}] = Abort.
Proof. reflexivity. Qed.

(** Two files collected. *)
Definition two_files := let* f1 := run_and_write acc [ev1] in let* f2 := run_and_write acc [ev2; ev1] in
                        collect_files acc [f1; f2].
Example collected_records : (let* s := two_files in look_up_port s (pt "a" "b" 2 4)) = Ok [(0,0);(1,0);(2,1);(3,2);(4,2)].
Proof. reflexivity. Qed.
Example collected_cols : (let* s := two_files in look_up_snapshot s (bt "a" "pres")) = Ok [[2];[6];[10];[2];[6]].
Proof. reflexivity. Qed.
Example vp_plain : plain_vars vp.
Proof. right. intros x [<-|[<-|[]]]; (split; [discriminate|simpl; repeat split; discriminate]). Qed.
