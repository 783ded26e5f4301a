(** Concrete configuration files. *)
From Coq Require Import ZArith QArith Reals List Bool String Ascii Lia.
From Verif Require Import Outcome ConfigModel CompModel CompSpec HdfModel HdfSpec CfgfModel CfgfSpec CfgfProofs.
Import ListNotations.
Open Scope nat_scope.
Open Scope list_scope.

(** Two components, three subdomains in a row, one reference port, two ports. *)
Definition xg_names := ["square"; "disk"]%string.
Definition xg_types : list Z := [0; 1; 0]%Z.
Definition xg_place (x : R) : mesh_config := MeshConfig x 0 0 0 0 0.
Definition xg_places : list mesh_config := [xg_place 0; xg_place 1; xg_place 2].
Definition xg_row (w : nat) (c : mesh_config) : list R := firstn w ([mc_t0 c; mc_t1 c; mc_t2 c; mc_r0 c; mc_r1 c; mc_r2 c] ++ [9%R]).
Definition xg_comp (w : nat) : sgroup :=
  SGroup {| attrs := [("number_of_components", 2%Z)]%string;
            links := [("meshes", Dset [3] (HInt xg_types)); ("configuration", Dset [3; w] (HDbl (flat_map (xg_row w) xg_places)))]%string |}
         [("0", "square"); ("1", "disk")]%string [].
Definition xg_dict : pdict := PDict "right" "square" "disk" 2 4 [1; 0; 0; 0; 0; 0]%R.
Definition xg_leaf : leaf :=
  Leaf {| attrs := [("attr1", 2%Z); ("attr2", 4%Z)]%string; links := [("comp2_configuration", Dset [6] (HDbl [1; 0; 0; 0; 0; 0]%R))]%string |}
       [("comp1", "square"); ("comp2", "disk")]%string.
Definition xg_rows : list port_row := [PortRow 0 1 2 4 0; PortRow 1 2 2 4 1].
Definition xg_ports (n : Z) : sgroup :=
  SGroup {| attrs := [("number_of_references", n)]%string; links := [("interface", Dset [2; 5] (HInt [0; 1; 2; 4; 0; 1; 2; 2; 4; 1]%Z))]%string |}
         [("0", "right"); ("1", "left")]%string [("right", xg_leaf)]%string.
Definition xg_refs : list (string * option pdict) := [("right", Some xg_dict); ("left", None)]%string.
Definition xg_file (w : nat) (n : Z) : gfile := GFile (Some (xg_comp w)) (Some (xg_ports n)).

Example xg_stores w n : w <= 7 -> stores_components (xg_file w n) w xg_names xg_types xg_places.
Proof.
  intros Hw. exists (xg_comp w). split; [reflexivity|]. split; [|split; [reflexivity|]].
  - split; [reflexivity|]. intros [|[|[|c]]] s E; try discriminate; injection E as <-; reflexivity.
  - exists (HDbl (flat_map (xg_row w) xg_places)), (flat_map (xg_row w) xg_places). split; [reflexivity|]. split; [reflexivity|].
    do 8 (destruct w as [|w]; [split; [reflexivity|]; intros [|[|[|m]]] x d E Hd Hdw; try discriminate; (try (destruct m; discriminate)); injection E as <-;
      (do 7 (destruct d as [|d]; [try reflexivity; lia|]); lia)|]). lia.
Qed.
Example xg_types_ok : forall t, In t xg_types -> (0 <= t < Z.of_nat (List.length xg_names))%Z.
Proof. intros t H. cbn in H. cbn. lia. Qed.

Example xg_stores_ports w : stores_ports (xg_file w 2) 5 xg_refs xg_rows.
Proof.
  exists (xg_ports 2). split; [reflexivity|]. split; [|split].
  - split; [reflexivity|]. intros [|[|[|c]]] s E; try discriminate; injection E as <-; reflexivity.
  - intros s o [E|[E|[]]]; injection E as <- <-.
    + split; [reflexivity|]. exists xg_leaf. split; [reflexivity|]. repeat split.
    + cbn. intuition discriminate.
  - eexists. eexists. split; [reflexivity|]. split; [reflexivity|]. split; [reflexivity|].
    intros [|[|[|m]]] x d E Hd Hdw; try discriminate; injection E as <-; (do 5 (destruct d as [|d]; [reflexivity|]); lia).
Qed.
(** The same ports, with no reference port. *)
Example xg_stores_none w : stores_ports (xg_file w 0) 5 [] xg_rows.
Proof.
  exists (xg_ports 0). split; [reflexivity|]. split; [|split].
  - split; [reflexivity|]. intros [|c] s E; discriminate.
  - intros s o [].
  - eexists. eexists. split; [reflexivity|]. split; [reflexivity|]. split; [reflexivity|].
    intros [|[|[|m]]] x d E Hd Hdw; try discriminate; injection E as <-; (do 5 (destruct d as [|d]; [reflexivity|]); lia).
Qed.

(** A port between two components of one boundary element each. *)
Definition xg_mesh (a : Z) : cmesh := CMesh [BElem a [0; 1]%Z] (fun v d => inject_Z v).
Example xg_build : exists p, build_dict 2 (1 # 100) xg_names [xg_mesh 2; xg_mesh 4] (fun _ k => cm_x k) xg_dict = Ok p /\ pd_comp1 p = 0%Z /\ pd_comp2 p = 1%Z.
Proof. eexists. split; [vm_compute; reflexivity|]. split; reflexivity. Qed.
