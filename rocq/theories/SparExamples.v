(** Two parameters on a grid of two by three points. *)
From Coq Require Import ZArith List Bool String Ascii Reals Lia Lra.
From Verif Require Import Outcome TagsSpec ConfigModel ConfigSpec SamplingModel SamplingSpec SparModel SparSpec.
Import ListNotations.
Open Scope Z_scope.
Open Scope string_scope.
Open Scope list_scope.

Definition ex_ed (_ : R) : string := "x".
Definition ex_ei (z : Z) : string := int_text z.
Definition ex_fmt (f : string) (z : Z) : string := (f ++ int_text z)%string.
Definition ex_params : list param := [IntegerP "problem/k" (-1) 1; FilenameP "mesh/file" "m" 4 8].
Definition ex_paths : list (list string) := [["problem"; "k"]; ["mesh"; "file"]].
Definition ex_conf : tree := Map [("mesh", Map [("type", Scalar "sub")]); ("main", Scalar "run")].

Example ex_keys : separate_keys ex_params ex_paths.
Proof.
  split.
  - repeat constructor; simpl; try discriminate.
  - intros a b p q Ha Hb Hn. destruct a as [|[|a]], b as [|[|b]]; cbn in Ha, Hb; try lia;
      try (destruct a; discriminate); try (destruct b; discriminate); inversion Ha; inversion Hb; subst;
      split; intros r E; discriminate.
Qed.

Example ex_sizes : set_param_space_sizes [2; 3] = Ok 6.
Proof. reflexivity. Qed.

(** The fifth sample (index 4) is the point (1, 1). *)
Example ex_sample : set_sample_params ex_ed ex_ei ex_fmt ex_params [2; 3] 4 ex_conf =
  Ok (Map [("mesh", Map [("type", Scalar "sub"); ("file", Scalar "m6")]); ("main", Scalar "run");
           ("problem", Map [("k", Scalar "1")])]).
Proof. vm_compute. reflexivity. Qed.

(** After samples 0 and 3 the result is the same. *)
Example ex_after : exists t1, runs_of (set_sample_params ex_ed ex_ei ex_fmt ex_params [2; 3]) [0; 3] ex_conf t1 /\
  set_sample_params ex_ed ex_ei ex_fmt ex_params [2; 3] 4 t1 =
  set_sample_params ex_ed ex_ei ex_fmt ex_params [2; 3] 4 ex_conf.
Proof.
  eexists. split.
  - eapply (runs_snoc _ [0]); [eapply (runs_snoc _ []); [apply runs_nil|]|]; vm_compute; reflexivity.
  - vm_compute. reflexivity.
Qed.

(** A logarithmic parameter: the middle of 1 and 100 is 10. *)
Example ex_log : exists v, double_param_log 1 100 3 1 = Ok v /\ (v * v = 100)%R.
Proof.
  exists (1 * pow (exp (ln (100 / 1) / 2)) 1)%R. split; [reflexivity|].
  replace (100 / 1)%R with 100%R by lra. rewrite pow_1, Rmult_1_l, <- exp_plus.
  replace (ln 100 / 2 + ln 100 / 2)%R with (ln 100) by lra. apply exp_ln. lra.
Qed.

Example ex_draw : set_random_params ex_ed ex_ei ex_fmt ex_params
    [{| dr_real := 0; dr_int := 0 |}; {| dr_real := 0; dr_int := 7 |}] ex_conf =
  Ok (Map [("mesh", Map [("type", Scalar "sub"); ("file", Scalar "m7")]); ("main", Scalar "run");
           ("problem", Map [("k", Scalar "0")])]).
Proof. reflexivity. Qed.

Example ex_file : solution_file "out" "poisson" 12 "" = "out/sample12_poisson.h5" /\
  solution_file "out" "poisson" (-3) "sol" = "out/sample-3_sol.h5".
Proof. split; reflexivity. Qed.

Example ex_run : exists solved, generate_samples 10 6 1 0 BASE 100 (fun s c => s :: c) (fun _ => true) [] = Finished solved [] /\
  map (fun x : Z * Z => solution_file "." "p" (snd x) "") solved =
  ["./sample100_p.h5"; "./sample101_p.h5"; "./sample102_p.h5"; "./sample103_p.h5"; "./sample104_p.h5"; "./sample105_p.h5"].
Proof. eexists. split; reflexivity. Qed.
