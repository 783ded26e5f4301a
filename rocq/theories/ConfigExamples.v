(** Concrete cases for the theorems of [ConfigProperties].  Tests, not proofs. *)
From Coq Require Import ZArith List Bool String Ascii.
From Verif Require Import Outcome TagsSpec ConfigModel ConfigSpec.
Import ListNotations.
Open Scope string_scope.

Definition cfg := Map [("main", Map [("mode", Scalar "single_run"); ("use_rom", Scalar "true")]);
                       ("mesh", Map [("files", Seq [Scalar "a.mesh"; Scalar "b.mesh"])]);
                       ("empty", Null)].
Definition as_string (t : tree) : outcome string := match t with Scalar s => Ok s | _ => Abort end.

Example key_segments : segments slash ["main"; "mode"] /\ join slash ["main"; "mode"] = "main/mode".
Proof. split; [split; [repeat constructor; simpl; try discriminate|discriminate]|reflexivity]. Qed.
Example keys_unrelated : unrelated ["main"; "mode"] ["main"; "use_rom"].
Proof. split; intros [|x r]; discriminate. Qed.
Example set_mode : (let* t := set_key cfg "main/mode" (Scalar "build_rom") in
                    let* (v, _) := get_option as_string t "main/mode" "" in
                    let* (w, _) := get_option as_string t "main/use_rom" "" in Ok (v, w)) = Ok ("build_rom", "true").
Proof. reflexivity. Qed.
Example create_path : (let* t := set_key cfg "empty/a/b" (Scalar "1") in value (get_required as_string t "empty/a/b")) = Ok "1".
Proof. reflexivity. Qed.
Example fallback : value (get_option as_string cfg "main/none" "fb") = Ok "fb".
Proof. reflexivity. Qed.
Example seq_index : value (get_option as_string cfg "mesh/files/1" "fb") = Ok "b.mesh".
Proof. reflexivity. Qed.
Example below_scalar_case : below_scalar cfg ["main"; "mode"; "x"] /\ ~ present cfg ["main"; "mode"; "x"].
Proof.
  split.
  - exists ["main"; "mode"], "x", [], "single_run". split; [reflexivity|].
    apply (at_map [] "main"); [intros []|]. apply (at_map [] "mode"); [intros []|]. constructor.
  - intros [v H]. inversion H as [|m1 k c m2 p v' Hn Hp E|]; subst.
    destruct m1 as [|e1 m1]; simpl in E; inversion E; subst.
    + inversion Hp as [|m1' k' c' m2' p' v'' Hn' Hp' E'|]; subst.
      destruct m1' as [|e1 m1']; simpl in E'; inversion E'; subst; [inversion Hp'|]. apply Hn'; simpl; auto.
    + apply Hn; simpl; auto.
Qed.

Definition load1 (s : string) : outcome tree := Ok (match s with "" => Null | _ => Scalar s end).
Example overrides : (let* t := overwrite load1 cfg "main/mode=train_rom:mesh/x=3:main/mode=build_rom" in
                     let* (v, _) := get_option as_string t "main/mode" "" in Ok v) = Ok "build_rom".
Proof. reflexivity. Qed.
Example bad_overrides : overwrite load1 cfg "main/mode" = Abort /\ overwrite load1 cfg "a=" = Abort /\
                        overwrite load1 cfg "a=1:b=2=3" = Abort.
Proof. repeat split. Qed.
Example good_items : Forall good_item [("main/mode", "train_rom"); ("mesh/x", "3")].
Proof. repeat constructor; simpl; repeat split; discriminate. Qed.

Definition entries := [Map [("name", Scalar "A"); ("file", Scalar "f1")]; Map [("file", Scalar "f0")];
                       Map [("name", Scalar "B"); ("file", Scalar "f2")]; Map [("name", Scalar "B"); ("file", Scalar "f3")]].
Example lookup_B : look_up_value as_string String.eqb as_string "name" "B" "file" "none" entries = Ok "f2".
Proof. reflexivity. Qed.
Example lookup_C : look_up_value as_string String.eqb as_string "name" "C" "file" "none" entries = Ok "none".
Proof. reflexivity. Qed.
