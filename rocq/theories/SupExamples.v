(** Concrete cases for the theorems on supremizers. *)
From Coq Require Import Reals List Bool Lia Arith ZArith String Lra.
From Verif Require Import Outcome LaBase LinalgModel LinalgSpec BlockVec TagsModel RomModel RomSpec RomProofs RomBasisProofs RomStateProofs SupModel SupSpec SupProofs.
Import ListNotations.
Local Open Scope nat_scope.

(** Two subdomains of the component "square": one velocity vector in R^3, two pressure vectors in R^2. *)
Definition exs_h (nu : nat) : rom := Rom 2 2 true ByDomain [0; 0] 1 [nu; 2].
Definition exs_dim (b : nat) : nat := if b =? 0 then 3 else 2.
Definition exs_st : romst :=
  RomSt (exs_h 1) true [RMat 3 1 false [1; 0; 0]%R; RMat 2 2 false [1; 0; 0; 1]%R] [DMat 3 1 [1; 0; 0]%R; DMat 2 2 [1; 0; 0; 1]%R]
    [0; 1; 0; 1] [0; 1; 3; 4; 6] [0; 1; 3] [1; 2; 1; 2].
(** The same with two velocity vectors. *)
Definition exs_st2 : romst :=
  RomSt (exs_h 2) true [RMat 3 2 false [1; 0; 0; 1; 0; 0]%R; RMat 2 2 false [1; 0; 0; 1]%R] [DMat 3 2 [1; 0; 0; 0; 1; 0]%R; DMat 2 2 [1; 0; 0; 1]%R]
    [0; 1; 0; 1] [0; 2; 4; 6; 8] [0; 2; 4] [2; 2; 2; 2].

Lemma exs_wf nu : rom_wf (exs_h nu).
Proof. unfold rom_wf, comp_of. cbn. repeat split; try lia. intros [|[|m]] H; cbn; lia. Qed.

Lemma exs_bases : vp_bases exs_st exs_dim.
Proof.
  split; [|split; reflexivity]. split; [reflexivity|]. split; [apply exs_wf|]. split; [reflexivity|]. split; [|split; [|split; [reflexivity|]]].
  - intros [|[|b]] H; cbn in H; try lia; cbn; (split; [unfold dm_wf; cbn; lia|split; reflexivity]).
  - split; [reflexivity|]. split; [reflexivity|]. intros [|[|m]] [|[|v]] (H1 & H2); cbn in H1, H2; try lia; reflexivity.
  - intros [|[|m]] [|[|v]] (H1 & H2); cbn in H1, H2; try lia; reflexivity.
Qed.
Lemma exs_bases2 : vp_bases exs_st2 exs_dim.
Proof.
  split; [|split; reflexivity]. split; [reflexivity|]. split; [apply exs_wf|]. split; [reflexivity|]. split; [|split; [|split; [reflexivity|]]].
  - intros [|[|b]] H; cbn in H; try lia; cbn; (split; [unfold dm_wf; cbn; lia|split; reflexivity]).
  - split; [reflexivity|]. split; [reflexivity|]. intros [|[|m]] [|[|v]] (H1 & H2); cbn in H1, H2; try lia; reflexivity.
  - intros [|[|m]] [|[|v]] (H1 & H2); cbn in H1, H2; try lia; reflexivity.
Qed.

Definition exs_cfg (n : Z) : sup_cfg := SupCfg ["square"]%string ["vel"; "pres"]%string n [].
Definition exs_B : list dmat := [DMat 2 3 [1; 0; 1; 2; 0; 1]%R].
Lemma exs_div s : rs_h s = exs_h 1 -> div_sizes s exs_dim exs_B.
Proof. intros E. unfold div_sizes. rewrite E. split; [reflexivity|]. intros [|c] H; cbn in H; try lia. split; reflexivity. Qed.

Lemma exs_ortho : ortho_cols (vel exs_st 0).
Proof. intros [|i] [|j] Hi Hj; cbn in Hi, Hj; try lia. unfold mget, vnth. cbn. lra. Qed.
Lemma exs_ortho2 : ortho_cols (vel exs_st2 0).
Proof. intros [|[|i]] [|[|j]] Hi Hj; cbn in Hi, Hj; try lia; unfold mget, vnth; cbn; lra. Qed.

(** An entry of basis/tags, a common number, the number of pressure vectors. *)
Example exs_numbers :
  map (fun cf => wanted cf exs_st 0)
    [SupCfg ["square"]%string ["vel"; "pres"]%string 2 [(Some "square"%string, Some 7%Z); (Some "square_pres"%string, Some 1%Z)]; exs_cfg 1; exs_cfg (-1)] = [1; 1; 2]%Z.
Proof. reflexivity. Qed.

Lemma exs_independent : lin_indep 3 (dm_cols (vel exs_st 0) ++ map (raw_sup (nth 0 exs_B (DMat 0 0 [])) (pres exs_st 0)) (seq 0 2)).
Proof.
  intros a H. assert (H0 := H 0 ltac:(lia)). assert (H1 := H 1 ltac:(lia)). assert (H2 := H 2 ltac:(lia)).
  unfold colv, vnth in H0, H1, H2. cbn in H0, H1, H2. unfold mget, vnth in H0, H1, H2. cbn in H0, H1, H2.
  intros [|[|[|k]]] Hk; cbn in Hk; try lia; lra.
Qed.

(** Two supremizers are computed. *)
Example exs_trained : exists files, enrich_supremizer (exs_cfg (-1)) exs_B exs_st = Ok files.
Proof.
  apply (enrich_runs _ _ _ exs_dim exs_bases).
  - split; reflexivity.
  - apply exs_div. reflexivity.
  - intros [|c] H; cbn in H; try lia. split; [apply exs_ortho|]. split; [cbn; lia|exact exs_independent].
Qed.

(** Three supremizers for two pressure vectors: the third pressure vector is read beyond the matrix. *)
Example exs_beyond : enrich_supremizer (exs_cfg 3) exs_B exs_st = UB.
Proof. reflexivity. Qed.

(** The second component of the first supremizer is not zero. *)
Lemma exs_first files : enrich_supremizer (exs_cfg (-1)) exs_B exs_st = Ok files -> mget (nth 0 files (DMat 0 0 [])) 1 0 <> 0%R.
Proof.
  intros E. destruct (enrich_inv (exs_cfg (-1)) _ _ exs_dim _ exs_bases ltac:(split; reflexivity) (exs_div exs_st eq_refl) E) as (_ & K). specialize (K 0 ltac:(cbn; lia)).
  assert (Wp : dm_wf (pres exs_st 0)) by (unfold dm_wf; cbn; lia).
  destruct (component_ok (nth 0 exs_B (DMat 0 0 [])) (vel exs_st 0) (pres exs_st 0) (nvel exs_st 0) (wanted (exs_cfg (-1)) exs_st 0) (nth 0 files (DMat 0 0 [])) Wp ltac:(cbn; lia) ltac:(cbn; lia) eq_refl eq_refl exs_ortho K) as (_ & _ & _ & _ & _ & Sp).
  destruct (Sp 1 ltac:(cbn; lia) (fun _ => 1%R)) as (c & Hc). specialize (Hc 1 ltac:(cbn; lia)). intros Z.
  change (rsum 1 (fun j => (c (dm_w (vel exs_st 0) + j)%nat * mget (nth 0 files (DMat 0 0 [])) 1 j)%R)) with (0 + c 1%nat * mget (nth 0 files (DMat 0 0 [])) 1 0)%R in Hc.
  rewrite Z in Hc. unfold grad_of in Hc. cbn in Hc. unfold mget, vnth in Hc. cbn in Hc. lra.
Qed.
