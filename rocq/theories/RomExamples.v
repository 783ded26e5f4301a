(** Concrete cases for the theorems on the ROM handler. *)
From Coq Require Import Reals List Bool Lia Arith ZArith String Lra.
From Verif Require Import Outcome LaBase LinalgModel LinalgSpec BlockVec TagsModel RomModel RomSpec RomProofs RomBasisProofs RomOpProofs RomStateProofs RomHeapProofs.
Import ListNotations.
Local Open Scope nat_scope.

(** Two subdomains of one component, velocity (one basis vector) and pressure (two). *)
Definition ex_h (o : rom_order) : rom := Rom 2 2 true o [0; 0] 1 [1; 2].

Example ex_wf o : rom_wf (ex_h o).
Proof. unfold rom_wf, comp_of. cbn. repeat split; try lia. intros [|[|m]] H; cbn; lia. Qed.

Example ex_domain_offsets : set_block_sizes (ex_h ByDomain) = Ok ([0; 1; 3; 4; 6], [0; 1; 3], [1; 2; 1; 2]).
Proof. reflexivity. Qed.
Example ex_variable_offsets : set_block_sizes (ex_h ByVariable) = Ok ([0; 1; 2; 4; 6], [0; 1; 3], [1; 1; 2; 2]).
Proof. reflexivity. Qed.
Example ex_place : block_index (ex_h ByVariable) 1 0 = Ok 1 /\ dom_var (ex_h ByVariable) 1 = Ok (1, 0%Z) /\ dom_var (ex_h ByDomain) 1 = Ok (0, 1%Z).
Proof. repeat split. Qed.

(** Orthonormal bases in R^2. *)
Definition ex_files : list rmat := [RMat 2 1 false [1; 0]%R; RMat 2 2 false [0; 1; 1; 0]%R].
Definition ex_init (o : rom_order) : romst :=
  match o with
  | ByDomain => RomSt (ex_h o) false [] [] [] [0; 1; 3; 4; 6] [0; 1; 3] [1; 2; 1; 2]
  | ByVariable => RomSt (ex_h o) false [] [] [] [0; 1; 2; 4; 6] [0; 1; 3] [1; 1; 2; 2]
  end.
Example ex_init_ok o : rom_init (ex_h o) = Ok (ex_init o).
Proof. destruct o; reflexivity. Qed.

Definition ex_st (o : rom_order) : romst :=
  RomSt (ex_h o) true ex_files [DMat 2 1 [1; 0]%R; DMat 2 2 [0; 1; 1; 0]%R]
    (match o with ByDomain => [0; 1; 0; 1] | ByVariable => [0; 0; 1; 1] end)
    (rs_off (ex_init o)) (rs_coff (ex_init o)) (rs_nbasis (ex_init o)).
Example ex_load o : load_reduced_basis ex_files (ex_init o) = Ok (ex_st o).
Proof. destruct o; reflexivity. Qed.

Example ex_files_ok o : files_ok (ex_h o) (fun _ => 2) ex_files.
Proof. split; [reflexivity|]. intros [|[|b]] Hb; cbn in Hb; try lia; cbn; repeat split. Qed.
Example ex_tiles o : tiles (ex_h o) (place (ex_h o)) (basis_size (ex_h o)) (rs_off (ex_init o)).
Proof.
  destruct o; (split; [reflexivity|]; split; [reflexivity|]); intros [|[|m]] [|[|v]] (H1 & H2); cbn in H1, H2; try lia; reflexivity.
Qed.

Example ex_bases o : bases_ok (ex_st o) (fun _ => 2).
Proof.
  destruct (load_ok (ex_init o) (fun _ => 2) ex_files) as (s' & E & B & _).
  - destruct o; apply ex_wf.
  - destruct o; apply ex_files_ok.
  - destruct o; [apply (ex_tiles ByDomain)|apply (ex_tiles ByVariable)].
  - rewrite ex_load in E. injection E as <-. exact B.
Qed.

Example ex_ortho o m v : unknown (ex_h o) m v -> ortho_cols (basis_of (ex_st o) m v).
Proof.
  intros (H1 & H2). cbn in H1, H2. destruct m as [|[|m]]; try lia; destruct v as [|[|v]]; try lia;
  intros i j Hi Hj; cbn in Hi, Hj; repeat (destruct i as [|i]; try lia); repeat (destruct j as [|j]; try lia);
  unfold mget, vnth; cbn; lra.
Qed.

(** A full-order vector of four blocks of two entries and a ROM vector. *)
Definition ex_V : bvec := BVec [0; 2; 4; 6; 8] [1; 2; 3; 4; 5; 6; 7; 8]%R.
Example ex_V_fits o : fits (ex_h o) (fom_place (ex_h o)) (full_size (ex_h o) (fun _ => 2)) ex_V.
Proof.
  split; [|reflexivity]. split; [reflexivity|]. split; [reflexivity|].
  intros [|[|m]] [|[|v]] (H1 & H2); cbn in H1, H2; try lia; reflexivity.
Qed.
Definition ex_r (o : rom_order) : bvec := BVec (rs_off (ex_init o)) [1; 2; 3; 4; 5; 6]%R.
Example ex_r_fits o : fits (ex_h o) (place (ex_h o)) (basis_size (ex_h o)) (ex_r o).
Proof. split; [apply ex_tiles|]. destruct o; reflexivity. Qed.

(** In the variable ordering the second ROM block is the velocity of the second subdomain: 5, not 4. *)
Example ex_project : exists a b c d e f, project_global (ex_st ByVariable) ex_V [0; 0; 0; 0; 0; 0]%R = Ok (BVec [0; 1; 2; 4; 6] [a; b; c; d; e; f]) /\
  (a = 1 /\ b = 5 /\ c = 4 /\ d = 3 /\ e = 8 /\ f = 7)%R.
Proof. do 6 eexists. split; [reflexivity|]. unfold mget, vnth. cbn. repeat split; lra. Qed.

Example ex_round_trip o : (let* W := lift_global (ex_st o) (ex_r o) ex_V in project_global (ex_st o) W [0; 0; 0; 0; 0; 0]%R) = Ok (ex_r o).
Proof.
  apply (round_trip (ex_st o) (fun _ => 2) (ex_bases o)).
  - apply ex_r_fits.
  - reflexivity.
  - apply ex_V_fits.
  - destruct o; reflexivity.
  - intros m v U. apply ex_ortho. exact U.
Qed.

(** A 2 x 2 operator and its matrix. *)
Definition ex_M : dmat := DMat 2 2 [1; 2; 3; 4]%R.
Example ex_op_fits : op_fits (Some (op_of ex_M)) 2 2.
Proof. split; [reflexivity|]. split; [reflexivity|]. exists (mget ex_M). apply op_of_matrix. auto. Qed.

Example ex_galerkin o : exists out, project_global_op (ex_st o) (OpMat 4 4 (fun i j => if i <=? j then Some (op_of ex_M) else None)) = Ok out /\
  List.length out = 4.
Proof.
  destruct (project_global_op_ok (ex_st o) (fun _ => 2) (OpMat 4 4 (fun i j => if i <=? j then Some (op_of ex_M) else None)) (ex_bases o)) as (out & E & L & _);
    try reflexivity.
  - intros m v m' v' U U'. cbn [om_get]. destruct (_ <=? _); [apply ex_op_fits|exact I].
  - exists out. auto.
Qed.

Example ex_stokes o : exists out, stokes_project (ex_st o) (fun _ _ => ex_M) (fun _ _ => ex_M) = Ok out.
Proof. apply (stokes_project_ok (ex_st o) (fun _ => 2)); auto using ex_bases. Qed.

(** The operators of one subdomain (2 variables). *)
Definition ex_mats (n : nat) : opmat := OpMat n n (fun _ _ => Some (op_of ex_M)).
Example ex_designates o us : (forall p, In p us -> unknown (ex_h o) (fst p) (snd p)) -> designates (ex_st o) (fun _ => 2) us (ex_mats (List.length us)).
Proof. intros _. split; [reflexivity|]. split; [reflexivity|]. intros. apply ex_op_fits. Qed.
Example ex_ref_designates o us : ref_designates (ex_st o) (fun _ => 2) us (ex_mats (List.length us)) (fun _ _ => op_of ex_M).
Proof. split; [reflexivity|]. split; [reflexivity|]. intros. split; [reflexivity|apply ex_op_fits]. Qed.

(** With the variable ordering, the block (velocity, pressure) of subdomain 0 is computed with the velocity
    basis of subdomain 1: it has one column instead of two. *)
Example ex_wrong_component : exists out,
  project_comp_dom (ex_st ByVariable) 0 (ex_mats 2) = Ok out /\
  ~ projected (ex_st ByVariable) (comp_unknowns (ex_h ByVariable) 0) (comp_unknowns (ex_h ByVariable) 0) (ex_mats 2) out.
Proof.
  destruct (project_dom_ops_ok (ex_st ByVariable) (fun _ => 2) [(0, 0); (1, 0)] [(0, 0); (1, 0)] (ex_mats 2) (ex_bases ByVariable))
    as (out & E & _ & _ & G); try (cbn; lia).
  - intros p [<-|[<-|[]]]; split; cbn; lia.
  - intros p [<-|[<-|[]]]; split; cbn; lia.
  - intros. apply ex_op_fits.
  - exists out. split; [exact E|]. intros (_ & _ & P). destruct (P 0 1) as (_ & W & _); [cbn; lia|cbn; lia|].
    destruct (G 0 1) as (_ & W' & _); [cbn; lia|cbn; lia|]. cbn [nth fst snd] in W'. rewrite W' in W.
    unfold basis_of, comp_unknowns in W. cbn in W. discriminate.
Qed.
Example ex_wrong_interface : exists out,
  project_itf_dom (ex_st ByVariable) 0 1 (ex_mats 4) = Ok out /\
  ~ projected (ex_st ByVariable) (comp_unknowns (ex_h ByVariable) 0 ++ comp_unknowns (ex_h ByVariable) 1)
      (comp_unknowns (ex_h ByVariable) 0 ++ comp_unknowns (ex_h ByVariable) 1) (ex_mats 4) out.
Proof.
  destruct (project_dom_ops_ok (ex_st ByVariable) (fun _ => 2) [(0, 0); (1, 0); (0, 1); (1, 1)] [(0, 0); (1, 0); (0, 1); (1, 1)] (ex_mats 4) (ex_bases ByVariable))
    as (out & E & _ & _ & G); try (cbn; lia).
  - intros p [<-|[<-|[<-|[<-|[]]]]]; split; cbn; lia.
  - intros p [<-|[<-|[<-|[<-|[]]]]]; split; cbn; lia.
  - intros. apply ex_op_fits.
  - exists out. split; [exact E|]. intros (_ & _ & P). destruct (P 0 1) as (_ & W & _); [cbn; lia|cbn; lia|].
    destruct (G 0 1) as (_ & W' & _); [cbn; lia|cbn; lia|]. cbn [nth fst snd] in W'. rewrite W' in W.
    unfold basis_of, comp_unknowns in W. cbn in W. discriminate.
Qed.
Example ex_wrong_variable : exists out,
  project_var_dom (ex_st ByVariable) 0 1 (ex_mats 2) = Ok out /\
  ~ projected (ex_st ByVariable) (var_unknowns (ex_h ByVariable) 0) (var_unknowns (ex_h ByVariable) 1) (ex_mats 2) out.
Proof.
  destruct (project_dom_ops_ok (ex_st ByVariable) (fun _ => 2) [(0, 0); (0, 1)] [(1, 0); (1, 1)] (ex_mats 2) (ex_bases ByVariable))
    as (out & E & _ & _ & G); try (cbn; lia).
  - intros p [<-|[<-|[]]]; split; cbn; lia.
  - intros p [<-|[<-|[]]]; split; cbn; lia.
  - intros. apply ex_op_fits.
  - exists out. split; [exact E|]. intros (_ & _ & P). destruct (P 0 0) as (_ & W & _); [cbn; lia|cbn; lia|].
    destruct (G 0 0) as (_ & W' & _); [cbn; lia|cbn; lia|]. cbn [nth fst snd] in W'. rewrite W' in W.
    unfold basis_of, var_unknowns in W. cbn in W. discriminate.
Qed.

(** Appending one vector to the velocity basis. *)
Example ex_append o : exists s', append_reference_basis (ex_st o) 0 (DMat 2 1 [0; 1]%R) = Ok s' /\
  rh_nb (rs_h s') = [2; 2] /\ rs_off s' = [0; 2; 4; 6; 8].
Proof. destruct o; eexists; (split; [reflexivity|]); split; reflexivity. Qed.

(** Loading again after that brings back a basis of one vector where two are declared; appending again stops. *)
Definition ex_h2 : rom := Rom 2 2 true ByDomain [0; 0] 1 [2; 2].
Definition ex_s1 : romst := RomSt ex_h2 true ex_files [DMat 2 2 [1; 0; 0; 1]%R; DMat 2 2 [0; 1; 1; 0]%R] [0; 1; 0; 1] [0; 2; 4; 6; 8] [0; 2; 4] [2; 2; 2; 2].
Definition ex_s2 : romst := RomSt ex_h2 true ex_files [DMat 2 1 [1; 0]%R; DMat 2 2 [0; 1; 1; 0]%R] [0; 1; 0; 1] [0; 2; 4; 6; 8] [0; 2; 4] [2; 2; 2; 2].
Example ex_append_s1 : append_reference_basis (ex_st ByDomain) 0 (DMat 2 1 [0; 1]%R) = Ok ex_s1.
Proof. reflexivity. Qed.
Example ex_reload_s2 : load_reduced_basis ex_files ex_s1 = Ok ex_s2.
Proof. reflexivity. Qed.
Example ex_reload : exists s1 s2,
  append_reference_basis (ex_st ByDomain) 0 (DMat 2 1 [0; 1]%R) = Ok s1 /\ bases_ok s1 (fun _ => 2) /\
  load_reduced_basis ex_files s1 = Ok s2 /\ (forall dim, ~ bases_ok s2 dim) /\
  append_reference_basis s2 0 (DMat 2 1 [0; 1]%R) = Abort.
Proof.
  exists ex_s1, ex_s2. split; [apply ex_append_s1|]. split; [|split; [apply ex_reload_s2|split; [|reflexivity]]].
  - destruct (append_ok (ex_st ByDomain) (fun _ => 2) 0 (DMat 2 1 [0; 1]%R) (ex_bases ByDomain)) as (s1 & E & B & _); [cbn; lia|unfold dm_wf; cbn; lia|reflexivity|].
    rewrite ex_append_s1 in E. injection E as <-. exact B.
  - intros dim H. destruct H as (_ & _ & _ & R & _). destruct (R 0) as (_ & _ & C); [cbn; lia|]. cbn in C. discriminate.
Qed.

(** Basis sizes: 3 for the tag "cyl_vel", the default 5 elsewhere. *)
Example ex_parse : parse_basis ["cyl"; "box"]%string ["vel"; "pres"]%string true [1; 0] [0; 20; 30; 50; 60] 5
  (Some [(Some "cyl_vel"%string, Some 3%Z); (Some "box"%string, Some 7%Z)]) = Ok ([3; 5; 5; 5], [20; 10; 20; 10]).
Proof. reflexivity. Qed.
Example ex_parse_unused : parse_basis ["cyl"; "box"]%string ["vel"]%string false [0] [0; 20] 5 None = Abort.
Proof. reflexivity. Qed.

(** Ownership. *)
Example ex_load_then_set : load_first_only [CLoad; CSolve; CSave; CSet true; CSet false].
Proof.
  intros pre post E c Hc. destruct pre as [|c0 pre]; [destruct Hc|]. exfalso. injection E as _ E.
  repeat (destruct pre as [|? pre]; [discriminate|injection E as _ E]). destruct pre; discriminate.
Qed.
Example ex_load_then_set_run : hp_run true [CLoad; CSolve] = Ok [].
Proof. reflexivity. Qed.
Example ex_double_free : hp_run false [CLoad; CSolve; CLoad] = UB /\ hp_run true [CSet true; CLoad] = UB.
Proof. split; reflexivity. Qed.
Example ex_leaks : hp_run true [CSet true; CSet true] = Ok [4] /\ hp_run false [CSet true; CSolve; CSolve] = Ok [3].
Proof. split; reflexivity. Qed.
