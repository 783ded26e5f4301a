(** Concrete cases for the theorems on the multi-block solver. *)
From Coq Require Import Reals List Bool Lia Arith ZArith String Lra.
From Verif Require Import Outcome LaBase BlockVec RomModel RomSpec MbModel MbSpec MbVecProofs MbFlowProofs MbMiscProofs MbAsmProofs.
Import ListNotations.
Local Open Scope list_scope.
Local Open Scope nat_scope.

(** Two subdomains, velocity of size 2 and 4, pressure of size 1 and 2. *)
Definition xm_size (m v : nat) : nat := match m, v with 0, 0 => 2 | 0, _ => 1 | _, 0 => 4 | _, _ => 2 end.
Definition xm_sub : bvec := BVec [0; 2; 3; 7; 9] [1; 2; 10; 3; 4; 5; 6; 20; 30]%R.
Definition xm_var : bvec := BVec [0; 2; 6; 7; 9] [1; 2; 3; 4; 5; 6; 10; 20; 30]%R.

Example xm_sub_shaped : sub_shaped 2 2 xm_size xm_sub.
Proof.
  exists (fun i => nth i [2; 1; 4; 2] 0). split.
  - repeat split. intros [|[|[|[|i]]]] H; try lia; reflexivity.
  - intros [|[|m]] [|[|v]] Hm Hv; try lia; reflexivity.
Qed.
Example xm_var_shaped : var_shaped 2 2 xm_size xm_var.
Proof.
  exists (fun i => nth i [2; 4; 1; 2] 0). split.
  - repeat split. intros [|[|[|[|i]]]] H; try lia; reflexivity.
  - intros [|[|m]] [|[|v]] Hm Hv; try lia; reflexivity.
Qed.
Example xm_sort : sort_by_variables 2 2 xm_sub (BVec [0; 2; 6; 7; 9] (repeat 0%R 9)) = Ok xm_var /\
  sort_by_subdomains 2 2 xm_var (BVec [0; 2; 3; 7; 9] (repeat 0%R 9)) = Ok xm_sub.
Proof. split; reflexivity. Qed.
Example xm_get : get_variable_vector 2 2 1 xm_sub (BVec [0; 1; 3] (repeat 0%R 3)) = Ok (BVec [0; 1; 3] [10; 20; 30]%R).
Proof. reflexivity. Qed.
Example xm_set : set_variable_vector 2 2 1 (BVec [0; 1; 3] [7; 8; 9]%R) xm_sub = Ok (BVec [0; 2; 3; 7; 9] [1; 2; 7; 3; 4; 5; 6; 8; 9]%R).
Proof. reflexivity. Qed.
Example xm_var_vector : shaped 2 (fun m => xm_size m 1) (BVec [0; 1; 3] [7; 8; 9]%R).
Proof. repeat split. intros [|[|i]] H; try lia; reflexivity. Qed.

(** Offsets: velocity has two components. *)
Definition xm_fo : flow_off := FlowOff [0; 1; 2; 3; 5; 7; 9] [0; 2; 3; 7; 9] [3; 6] [0; 3; 9] [0; 2; 6] [0; 1; 3] [0; 6; 9].
Example xm_flow : flow_offsets 2 2 3 xm_size (fun m v => m + 1) (fun v => if v =? 0 then 2 else 1) = Ok xm_fo.
Proof. reflexivity. Qed.
Example xm_scalar : scalar_offsets 2 2 (fun m => 2 * (m + 3)) (fun m => m + 3) = Ok ([0; 3; 6; 10; 14], [0; 6; 14], [6; 8]).
Proof. reflexivity. Qed.

(** The mean of the pressures 10, 20, 30 is removed. *)
Example xm_mean : exists s, remove_mean [0; 6; 9] (bv_dat xm_var) = Ok s /\ vnth s 5 = 6%R /\ vnth s 6 = (-10)%R /\ vnth s 7 = 0%R /\ vnth s 8 = 10%R.
Proof. eexists. split; [reflexivity|]. unfold vnth. cbn. repeat split; lra. Qed.
Example xm_solve : flow_solve 2 2 xm_fo true (fun x => map (fun y => (2 * y)%R) x) xm_sub xm_sub (repeat 0%R 9)
  = Ok (BVec [0; 2; 3; 7; 9] (map (fun y => (2 * y)%R) [1; 2; 10; 3; 4; 5; 6; 20; 30]%R)).
Proof. reflexivity. Qed.

(** Boundary types: attribute 2 is listed twice, 5 is not an attribute, 1 is not named. *)
Example xm_types : set_problem [1; 2; 4]%Z [2; 5; 4; 2]%Z [BDirichlet; BNone; BNeumann; BZero] [BZero; BNone; BNone] = Ok [BZero; BDirichlet; BNeumann].
Proof. reflexivity. Qed.
Example xm_first : first_at [2; 5; 4; 2]%Z 2 0 /\ ~ In 1%Z [2; 5; 4; 2]%Z.
Proof. split; [split; [reflexivity|intros; lia]|]. cbn. lia. Qed.
Example xm_short_types : set_problem [1]%Z [1]%Z [] [BZero] = UB.
Proof. reflexivity. Qed.
Example xm_bdr_type : set_bdr_type [1; 2]%Z [BNone; BNone] BDirichlet (-1) = Ok [BDirichlet; BDirichlet] /\
  set_bdr_type [1; 2]%Z [BNone; BNone] BDirichlet 1 = Ok [BNone; BDirichlet] /\ set_bdr_type [1; 2]%Z [BNone; BNone] BDirichlet 2 = Abort.
Proof. repeat split. Qed.
Example xm_markers : setup_bc [[1; 2; 3]; [2; 4]]%Z [2; 4]%Z = Ok ([[0; 1; 0; 0]; [0; 0; 0; 1]]%Z, [BNone; BNone]).
Proof. reflexivity. Qed.
Example xm_bad_attr : setup_bc [[1; 2; 3]]%Z [4]%Z = Abort.
Proof. reflexivity. Qed.

(** Two subdomains of one component with two boundaries, one port. *)
Definition one (x : R) : option fmat := Some (FMat 1 1 (fun _ _ => x)).
Definition xm_h : rom := Rom 2 1 false ByDomain [0; 0] 1 [1].
Definition xm_port : mblocks := MBlocks 2 2 (fun i j => match i, j with 0, 0 => one 3 | 0, _ => one 5 | _, 0 => None | _, _ => one 7 end).
Definition xm_asm : asm :=
  Asm xm_h [0; 1; 2] [MBlocks 1 1 (fun _ _ => one 2)] [[MBlocks 1 1 (fun _ _ => one 10); MBlocks 1 1 (fun _ _ => one 20)]]
    [xm_port] [[1; 3]; [1; 2]]%Z [1; 2]%Z [true; true] [BDirichlet; BNeumann] [(0, 1, 0)].

Example xm_asm_ok : asm_ok xm_asm.
Proof.
  unfold asm_ok. cbn [as_rom as_off as_comp as_bdr as_c2g as_gattr as_bc as_btype as_ports as_port xm_asm rh_sep xm_h].
  split; [repeat split; cbn; try lia; intros [|[|m]] H; cbn; lia|].
  split; [split; [reflexivity|split; [reflexivity|]]; intros [|[|m]] v (H1 & H2); cbn in H1, H2; try lia; subst v; reflexivity|].
  repeat (split; [reflexivity|]).
  split; [intros [|[|m]] H; cbn in H; try lia; reflexivity|].
  split; [intros [|[|m]] H; cbn in H; try lia; (split; [reflexivity|]; split; [reflexivity|]); intros [|i] [|j] X Hi Hj E; try lia; cbn in E; injection E as <-; split; reflexivity|].
  split; [intros [|[|m]] [|[|b]] H Hb; cbn in H, Hb; try lia; (split; [reflexivity|]; split; [reflexivity|]); intros [|i] [|j] X Hi Hj E; try lia; cbn in E; injection E as <-; split; reflexivity|].
  intros P [<-|[]]. cbn. split; [lia|]. split; [lia|]. split; [lia|]. split; [reflexivity|]. split; [reflexivity|].
  intros [|[|i]] [|[|j]] X Hi Hj E; try lia; cbn in E; try discriminate; injection E as <-; split; reflexivity.
Qed.

Definition xm_ess (m b : nat) : bool := b =? 0.
Example xm_essential m b : m < 2 -> b < List.length (nth m (as_c2g xm_asm) []) -> xm_ess m b = true <-> essential xm_asm m b.
Proof.
  intros Hm Hb. destruct m as [|[|m]]; try lia; destruct b as [|[|b]]; cbn in Hb; try lia; unfold xm_ess; cbn [Nat.eqb];
    (split; [intros E; try discriminate|intros (ga & g & E1 & (E2 & E3) & E4 & E5); try reflexivity; exfalso]).
  - exists 1%Z, 0. repeat split; try discriminate. intros; lia.
  - cbn in E1. injection E1 as <-. destruct g as [|[|g]]; cbn in E2; try discriminate. destruct g; discriminate.
  - exists 1%Z, 0. repeat split; try discriminate. intros; lia.
  - cbn in E1. injection E1 as <-. destruct g as [|[|g]]; cbn in E2; try discriminate; [|destruct g; discriminate]. cbn in E5. congruence.
Qed.
Example xm_matrix : exists B, assemble_rom_mat xm_asm = Ok B /\ val (B 0 0) 0 0 = 15%R /\ val (B 0 1) 0 0 = 5%R /\ B 1 0 = None /\ val (B 1 1) 0 0 = 19%R.
Proof. eexists. split; [reflexivity|]. cbn. repeat split; lra. Qed.

(** Visualization of every second of three subdomains. *)
Definition xm_vis : visual := Visual true false 0 2.
Example xm_vis_saved : vis_init 3 xm_vis = Ok [true; false; true] /\ vis_save 3 xm_vis [true; false; true] = Ok [0; 2] /\
  vis_save_step 3 xm_vis [true; false; true] = UB.
Proof. repeat split. Qed.
Example xm_vis_all : vis_init 2 (Visual true false 0 1) = Ok [true; true] /\ vis_save_step 2 (Visual true false 0 1) [true; true] = Ok [0; 1].
Proof. repeat split. Qed.
Example xm_not_selected : ~ selected xm_vis 1.
Proof. intros (_ & k & E). cbn in E. lia. Qed.

(** Solution files. *)
Definition xm_cfg : solcfg := SolCfg true "dir" "sol" (fun _ => true).
Definition no_files : files := fun _ => None.
Example xm_names : sol_name xm_cfg "" = "dir/sol.h5"%string /\ sol_name xm_cfg "a.h5" = "a.h5"%string.
Proof. split; reflexivity. Qed.
Example xm_saved : exists fs, save_solution xm_cfg no_files "" [1; 2]%R = Ok fs /\ load_solution fs "dir/sol.h5" [0; 0]%R = Ok [1; 2]%R /\
  load_solution fs "dir/sol.h5" [0]%R = Abort /\ load_solution fs "sol.h5" [0; 0]%R = Abort.
Proof. eexists. split; [reflexivity|]. repeat split. Qed.
Example xm_timed : save_with_time (SolCfg false "dir" "sol" (fun _ => true)) no_files "a.h5" [1]%R 3 (1 / 2) = Abort /\
  save_with_time xm_cfg no_files "" [1]%R 3 (1 / 2) = Abort.
Proof. split; reflexivity. Qed.

(** Two subdomains with errors 3, 4 and norms 6, 8. *)
Example xm_error : relative_error 2 1 (fun m _ => if m =? 0 then (3, 6)%R else (4, 8)%R) = 
  Ok [(sqrt (0 + 3 * 3 + 4 * 4) / sqrt (0 + 6 * 6 + 8 * 8))%R].
Proof. reflexivity. Qed.

(** Element files. *)
Definition xm_elems : list (comp_elem nat) := [CompElem 1 2 [3; 4]; CompElem 5 6 [7]].
Definition xm_ports : list string := [port_name "a" "b" 2 12; port_name "a" "b" 21 2].
Example xm_elem_file : exists f, save_elems ["a"; "b"]%string [2; 1] xm_ports xm_elems [10; 11] = Ok f /\
  load_elems ["b"; "a"]%string [1; 2] [port_name "a" "b" 21 2] f = Ok ([CompElem 5 6 [7]; CompElem 1 2 [3; 4]], [11]).
Proof. eexists. split; [reflexivity|]. reflexivity. Qed.
Example xm_ports_distinct : NoDup xm_ports /\ NoDup ["a"; "b"]%string.
Proof. split; repeat constructor; cbn; intuition discriminate. Qed.
