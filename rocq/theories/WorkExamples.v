(** Concrete configurations for the theorems in [WorkProperties].  Tests, not proofs. *)
From Coq Require Import ZArith List String Bool Lia Reals DecimalString DecimalZ.
From Verif Require Import Outcome TagsModel TagsSpec ConfigModel ConfigSpec ConfigProofs SnapshotModel SnapshotSpec SnapshotExamples
  WorkModel WorkSpec WorkProofs.
Import ListNotations.
Open Scope string_scope.
Open Scope list_scope.

Definition xstr (t : tree) : outcome string := match t with Scalar s => Ok s | _ => Abort end.
Definition xint (t : tree) : outcome Z :=
  match t with
  | Scalar s => match NilEmpty.int_of_string s with Some i => Ok (Z.of_int i) | None => Abort end
  | _ => Abort
  end.
Definition xfmt (f : string) (k : Z) : string := (f ++ index_key (Z.to_nat k))%string.

Definition entry_a := Map [("name", Scalar "a_vel"); ("number_of_basis", Scalar "4");
  ("snapshot_files", Seq [Scalar "old1"; Scalar "old2"]);
  ("snapshot_format", Map [("minimum", Scalar "3"); ("maximum", Scalar "5"); ("format", Scalar "run")])].
Definition entry_b := Map [("name", Scalar "b_pres")].
Definition cfg1 := Map [
  ("main", Map [("solver", Scalar "stokes")]);
  ("mesh", Map [("component-wise", Map [("components", Seq [Map [("name", Scalar "a")]; Map [("name", Scalar "b")]])])]);
  ("basis", Map [("number_of_basis", Scalar "7"); ("tags", Seq [entry_b; entry_a])])].

Example files_a : snapshot_files xstr xint xfmt cfg1 (bt "a" "vel") "dflt" = Ok ["old1"; "old2"; "run3"; "run4"; "run5"].
Proof. reflexivity. Qed.
Example files_b : snapshot_files xstr xint xfmt cfg1 (bt "b" "pres") "dflt" = Ok ["dflt"].
Proof. reflexivity. Qed.
Example files_c : snapshot_files xstr xint xfmt cfg1 (bt "b" "vel") "dflt" = Ok ["dflt"].
Proof. reflexivity. Qed.
Example sizes1 : map (train_num_basis xstr xint cfg1) [bt "a" "vel"; bt "b" "pres"; bt "b" "vel"] = [Ok 4%Z; Ok 7%Z; Ok 7%Z].
Proof. reflexivity. Qed.
Example tags1 : global_tags xstr COMPONENT cfg1 [] true = Ok [bt "a" "vel"; bt "a" "pres"; bt "b" "vel"; bt "b" "pres"].
Proof. reflexivity. Qed.
Example tags2 : global_tags xstr COMPONENT cfg1 [] false = Ok [bt "a" ""; bt "b" ""].
Proof. reflexivity. Qed.
Example tags3 : global_tags xstr SUBMESH cfg1 ["comp0"] false = Ok [bt "comp0" ""].
Proof. reflexivity. Qed.

Lemma at_node t p v t' : find_node t p = Ok (Some v, t') -> at_path t p v.
Proof. intros E. pose proof (found_inv _ _ _ (found_ok _ _ _ _ E)) as H. exact H. Qed.
Lemma absent_node t p t' : find_node t p = Ok (None, t') -> absent t p.
Proof. intros E. pose proof (found_inv _ _ _ (found_ok _ _ _ _ E)) as H. exact H. Qed.

Example cfg1_tags : tag_entries cfg1 [entry_b; entry_a].
Proof. apply tags_list. eapply at_node. reflexivity. Qed.
Example cfg1_readable : names_readable xstr [entry_b; entry_a].
Proof.
  intros e [<-|[<-|[]]]; right; eexists; eexists; (split; [eapply at_node; reflexivity|reflexivity]).
Qed.
Example cfg1_configured : configured xstr xint xfmt cfg1 "a_vel" ["old1"; "old2"; "run3"; "run4"; "run5"].
Proof.
  apply (conf_some xstr xint xfmt cfg1 "a_vel" [entry_b; entry_a] entry_a ["old1"; "old2"] ["run3"; "run4"; "run5"]).
  - apply cfg1_tags.
  - exists [entry_b], []. split; [reflexivity|]. split.
    + eexists. split; [eapply at_node; reflexivity|reflexivity].
    + intros e0 [<-|[]] (n & Hn & En). apply find_some in Hn. cbn in Hn. inversion Hn; subst. cbn in En. discriminate.
  - eapply listed_some; [eapply at_node; reflexivity|]. repeat constructor.
  - apply (numbered_some xstr xint xfmt _ _ (Map [("minimum", Scalar "3"); ("maximum", Scalar "5"); ("format", Scalar "run")]) 3 5 "run").
    + eapply at_node; reflexivity.
    + eexists. split; [eapply at_node; reflexivity|reflexivity].
    + eexists. split; [eapply at_node; reflexivity|reflexivity].
    + eexists. split; [eapply at_node; reflexivity|reflexivity].
    + intros [|[|[|k]]]; try reflexivity. destruct (Z.leb_spec (3 + Z.of_nat (S (S (S k)))) 5); [lia|]. destruct k; reflexivity.
Qed.
Example cfg1_declared : declared xstr cfg1 ["a"; "b"].
Proof.
  eapply declared_list; [eapply at_node; reflexivity|]. repeat constructor; (eexists; split; [eapply at_node; reflexivity|reflexivity]).
Qed.
Example cfg1_solver : holds xstr cfg1 ["main"; "solver"] "stokes".
Proof. eexists. split; [eapply at_node; reflexivity|reflexivity]. Qed.

(** A configuration without tag-specific entries, the sampling history of [SnapshotExamples] and training. *)
Definition cfg2 := Map [
  ("main", Map [("solver", Scalar "stokes")]);
  ("mesh", Map [("component-wise", Map [("components", Seq [Map [("name", Scalar "a")]; Map [("name", Scalar "b")]])])]);
  ("basis", Map [("number_of_basis", Scalar "7")])].
Definition trained := let* s := run_history acc [ev1; ev2] in
  let* d := write_disk "dir/p_sample" s (fun _ => None) in
  collect_samples_by_basis xstr xint xfmt acc cfg2 COMPONENT [] true "dir/p_sample" d sg0.
Example trained_a : (let* s := trained in look_up_snapshot s (bt "a" "vel")) = Ok [[1;1];[5;5];[9;9]].
Proof. reflexivity. Qed.
Example trained_bases : (let* s := trained in form_reduced_basis xstr xint cfg2 "basis" s) =
  Ok [("basis_a_vel", [[1;1];[5;5];[9;9]], 7%Z); ("basis_a_pres", [[2];[6];[10]], 7%Z);
      ("basis_b_vel", [[3;3];[7;7]], 7%Z); ("basis_b_pres", [[4];[8]], 7%Z)].
Proof. reflexivity. Qed.
Example cfg2_tags : tag_entries cfg2 [].
Proof. apply tags_absent. eapply absent_node. reflexivity. Qed.
