(** Concrete cases for the advection-diffusion solver. *)
From Coq Require Import Reals List Bool Lia Lra Arith ZArith String.
From Verif Require Import Outcome ListLemmas LaBase LinalgModel BlockVec RomModel MbModel MbSpec EqpSpec ItfModel ItfSpec ProbModel BcModel BupModel BupSpec BupExamples AdvModel AdvSpec AdvProofs.
From Verif Require BcSpec ItfExamples.
Import ListNotations.
Local Open Scope nat_scope.

(** Two subdomains with one velocity and one pressure unknown each; the flow of a problem is a variable, one more in the second
    subdomain. *)
Definition ax_c (save load : bool) : acfg := ACfg false 2 save load (Some "flow.h5"%string) (fun _ => true) 2 [1; 2; 3]%Z.
Definition ax_u (g : gvars) : vec := [g "u"%string; 0; g "u"%string + 1; 0]%R.
Definition ax_L (conv : bool) : flows := Flows [0; 1; 2; 3; 4] (fun p g => Ok (ax_u g, conv)).
Definition ax_p : problem := with_bdr (base_problem "x") [1]%Z [BDirichlet] [Some SQbdr] [None].
Definition ax_g (r : R) : gvars := fun _ => r.
Definition ax_none : files := fun _ => None.

Example ax_flows save load conv : flows_ok (ax_c save load) (ax_L conv).
Proof.
  split; [|split].
  - exists (fun _ => 1). intros u Hu. cbn in Hu. split; [|exact Hu]. split; [reflexivity|]. split; [reflexivity|]. intros [|[|[|[|i]]]] Hi; cbn in *; lia.
  - intros p g u cv H. injection H as <- <-. reflexivity.
  - discriminate.
Qed.
Example ax_files : files_ok ax_none.
Proof. intros n f k u H. discriminate H. Qed.
Example ax_poisson ps : po_types ps = [BNone; BNone; BNone] -> po_bdr ps = [None; None; None] -> exists ps', poisson_set [1; 2; 3]%Z ax_p ps = Ok ps'.
Proof. destruct ps as [t b r]. cbn [po_types po_bdr]. intros -> ->. eexists. vm_compute. reflexivity. Qed.

(** A first problem, computed, saved and built; a second one with the flow of the first. *)
Example ax_run save load : exists s, exec (ax_c save load) (ax_L true) ax_none [OSet (ax_g 1) false (Some ax_p) ax_p; OBuild] = Ok s.
Proof. destruct save, load; eexists; vm_compute; reflexivity. Qed.
Example ax_again : exists s, exec (ax_c true true) (ax_L true) ax_none [OSet (ax_g 1) false (Some ax_p) ax_p; OBuild; OSet (ax_g 5) false (Some ax_p) ax_p; OBuild] = Ok s.
Proof. eexists. vm_compute. reflexivity. Qed.
(** Functions for one subdomain only, then for all. *)
Example ax_functions : exists s, exec (ax_c false false) (ax_L true) ax_none [OFlow (fun x => x) 1; OFlow (fun x => x ++ x) (-1); OSet (ax_g 1) true None ax_p; OBuild] = Ok s.
Proof. eexists. vm_compute. reflexivity. Qed.
Example ax_unset : exec (ax_c false false) (ax_L true) ax_none [OFlow (fun x => x) 1; OSet (ax_g 1) true None ax_p; OBuild] = Abort.
Proof. vm_compute. reflexivity. Qed.

(** One quadrature point in every element. *)
Definition ax_pts (m e : nat) : list qpt := [Qpt 1 [INR m; INR e] (fun i => INR (1 + i)) (fun i d => INR (i + d)) (fun d j => INR (1 + d))].
Example ax_itf : itf_ok (adv_numerics 2 ax_pts bx_nu) bx_g bx_fes bx_fes (IItfDiffusion 1 2).
Proof. exact (bx_itf (IItfDiffusion 1 2)). Qed.
