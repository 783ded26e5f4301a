(** Concrete cases for the theorems on reduced systems from component elements. *)
From Coq Require Import Reals List Bool Lia Lra Arith ZArith.
From Verif Require Import Outcome ListLemmas LaBase LinalgModel LinalgSpec BlockVec RomModel RomSpec RomProofs RomOpProofs MbModel MbSpec MbMiscProofs EqpSpec ItfModel ItfSpec ProbModel BcModel BcProofs BupModel BupSpec.
From Verif Require BcSpec RomExamples ItfExamples.
Import ListNotations.
Local Open Scope nat_scope.

(** Two copies of a component of two elements, side by side; boundaries 1 and 3 at the ends, 2 along both, 5 between them. *)
Definition bx_comp : mesh := Mesh 2 1 [(1, true); (2, true); (2, false); (3, true)]%Z.
Definition bx_faces (k : nat) : list (option face) := [None; Some (Face 1 0 k)].
Definition bx_g : geometry :=
  Geometry [bx_comp] [[1; 2; 3]%Z] [0; 0] [[1; 2; 5]; [5; 2; 3]]%Z [1; 2; 3]%Z [ItfPort 0 1 (bx_faces 0)] [0] [ItfPort 0 0 (bx_faces 7)].
Definition bx_fes : list fespace := [Fes 2 (fun e => if e =? 0 then [0; -2]%Z else [1]%Z)].
(** Every integrator adds something, the same in every copy. *)
Definition bx_nu : numerics :=
  Numerics (fun I _ e p q => INR (1 + e + p + 2 * q)) (fun I _ e p q => INR (2 + p * q)) (fun I _ e p q => INR (3 + e + p + q)) (fun I => ItfExamples.xi_g).

Example bx_geo : geo_ok bx_g.
Proof.
  split; [cbn; lia|]. split; [reflexivity|]. split; [reflexivity|]. split; [intros [|[|m]] Hm; cbn in *; lia|]. split.
  { intros [|c] Hc; [|cbn in Hc; lia]. cbn [bx_g g_attrs g_comps attrs_of mesh_of nth bx_comp me_bdr map fst]. split; [|split; [|split]].
    - repeat constructor; cbn; intuition lia.
    - discriminate.
    - intros a H. cbn in H. intuition lia.
    - intros a. cbn. intuition. }
  split.
  { intros [|[|m]] Hm; [| |cbn in Hm; lia]; (split; [reflexivity|]); intros a H; cbn in H; intuition lia. }
  split; [repeat constructor; cbn; intuition lia|]. split.
  { intros a H. cbn in H. destruct H as [<-|[<-|[<-|[]]]].
    - exists 0. cbn. split; [lia|auto].
    - exists 0. cbn. split; [lia|auto].
    - exists 1. cbn. split; [lia|auto]. }
  split; [reflexivity|]. intros [|k] Hk; [|cbn in Hk; lia]. split; [cbn; lia|]. intros [|[|i]] Hi; [| |lia]; cbn; split; auto.
Qed.
Example bx_copied dom int bd : copied bx_nu bx_g dom int bd.
Proof. intros m e p q Hm. split; [reflexivity|]. split; reflexivity. Qed.
Example bx_itf it : itf_ok bx_nu bx_g bx_fes bx_fes it.
Proof.
  assert (F : ports_fit bx_fes (g_refs bx_g)).
  { split.
    - intros p [<-|[]]. cbn. lia.
    - intros p f i H Hi d Hd. cbn in H. destruct H as [H|[]]. injection H as <- <-. destruct i as [|[|i]]; try lia; cbn in Hd; intuition subst; cbn; lia. }
  split; [reflexivity|]. split; [reflexivity|]. split; [exact F|]. split; [exact F|]. split.
  - intros p f i j H Hi Hj. cbn in H. destruct H as [H|[]]. injection H as <- <-. destruct i as [|[|i]]; try lia; destruct j as [|[|j]]; try lia; cbn; lia.
  - intros [|k] Hk; [|cbn in Hk; lia]. constructor; [exact Logic.I|]. constructor; [|constructor]. split; [reflexivity|]. split; [reflexivity|]. intros x i j [<-|[]] _ _. split; [reflexivity|]. split; reflexivity.
Qed.

(** A function on boundary 1, a flux on boundary 2, zero on boundary 3. *)
Definition bx_types : list btype := [BDirichlet; BNeumann; BZero].
Definition bx_bdr : list (option coeff) := [Some CZero; Some CZero; Some CZero].
Definition bx_enf (a : Z) : bool := (a =? 1)%Z || (a =? 3)%Z.
Example bx_sized : BcSpec.sized (g_gattr bx_g) bx_types bx_bdr.
Proof. split; reflexivity. Qed.
Example bx_weak a : bx_enf a = true <-> weak bx_g bx_types bx_bdr a.
Proof.
  unfold bx_enf. rewrite orb_true_iff, !Z.eqb_eq. split.
  - intros [->| ->]; [exists 0|exists 2]; (split; [reflexivity|]); split; discriminate.
  - intros (b & E & _ & N). destruct b as [|[|[|b]]]; cbn in E; [left; congruence|destruct N; reflexivity|right; congruence|destruct b; discriminate].
Qed.

(** One basis vector for the only component, both layouts. *)
Definition bx_st (sep : bool) (o : rom_order) : romst := RomSt (Rom 2 1 sep o [0; 0] 1 [1]) true [] [DMat 2 1 [1; 2]%R] [0; 0] [0; 1; 2] [0; 1] [1; 1].
Example bx_bases sep o : scalar_bases (bx_st sep o) bx_g bx_fes (fun _ => 2).
Proof.
  split; [|split; [reflexivity|]; split; [reflexivity|]; split; [reflexivity|]; split; [reflexivity|]; intros [|c] Hc; [reflexivity|cbn in Hc; lia]].
  split; [reflexivity|]. split. { unfold rom_wf, comp_of. cbn. repeat split; try lia; try (intros [|[|m]] H; cbn; lia); destruct sep; reflexivity. }
  split; [reflexivity|]. split. { intros [|b] Hb; [|cbn in Hb; lia]. split; [unfold dm_wf; cbn; reflexivity|]. split; reflexivity. }
  split. { split; [destruct sep; reflexivity|]. split; [reflexivity|]. intros [|[|m]] v (H1 & H2); try (cbn in H1; lia); destruct sep, o; cbn in H2 |- *; (destruct v; [|lia]); reflexivity. }
  split; [destruct sep; reflexivity|]. intros [|[|m]] v (H1 & H2); try (cbn in H1; lia); destruct sep, o; cbn in H2 |- *; (destruct v; [|lia]); reflexivity.
Qed.

(** Two elements and boundary 1; two elements, boundary 3 and the interface, one degree of freedom flipped. *)
Example bx_entry : exists A, poisson_full bx_nu bx_g bx_fes false 1 2 bx_types bx_bdr = Ok A /\ val (A 0 0) 0 0 = 6%R /\ val (A 1 1) 0 1 = 1%R.
Proof. eexists. split; [vm_compute; reflexivity|]. split; cbn; unfold DgModel.mb_faces; cbn; lra. Qed.

(** Velocity and pressure bases, or one for both. *)
Example bx_stokes_sep o : stokes_bases (RomExamples.ex_st o) bx_g bx_fes bx_fes (fun _ => 2).
Proof.
  split; [apply RomExamples.ex_bases|]. split; [reflexivity|]. split; [reflexivity|]. split; [reflexivity|]. split; [reflexivity|]. intros [|c] Hc; [|cbn in Hc; lia]. split; reflexivity.
Qed.
Definition bx_st2 (o : rom_order) : romst := RomSt (Rom 2 2 false o [0; 0] 1 [1]) true [] [DMat 4 1 [1; 2; 3; 4]%R] [0; 0] [0; 1; 2] [0; 1] [1; 1].
Example bx_stokes_one o : stokes_bases (bx_st2 o) bx_g bx_fes bx_fes (fun _ => 4).
Proof.
  split; [|split; [reflexivity|]; split; [reflexivity|]; split; [reflexivity|]; split; [reflexivity|]; intros [|c] Hc; [reflexivity|cbn in Hc; lia]].
  split; [reflexivity|]. split. { unfold rom_wf, comp_of. cbn. repeat split; try lia. intros [|[|m]] H; cbn; lia. }
  split; [reflexivity|]. split. { intros [|b] Hb; [|cbn in Hb; lia]. split; [unfold dm_wf; cbn; reflexivity|]. split; reflexivity. }
  split. { split; [reflexivity|]. split; [reflexivity|]. intros [|[|m]] v (H1 & H2); try (cbn in H1; lia); cbn in H2; subst v; reflexivity. }
  split; [reflexivity|]. intros [|[|m]] v (H1 & H2); try (cbn in H1; lia); cbn in H2; subst v; reflexivity.
Qed.

(** Elasticity: a displacement on boundary 1, a traction on boundary 2, nothing on boundary 3. *)
Definition bx_ls : lsolver := LSolver [BDirichlet; BNeumann; BNone] [Some CZero; Some CZero; None] [] None None.
Example bx_ls_sized : BcSpec.sized (g_gattr bx_g) (le_types bx_ls) (le_bdr bx_ls).
Proof. split; reflexivity. Qed.
Example bx_ls_weak a : (a =? 1)%Z = true <-> weak bx_g (le_types bx_ls) (le_bdr bx_ls) a.
Proof.
  rewrite Z.eqb_eq. split.
  - intros ->. exists 0. split; [reflexivity|]. split; discriminate.
  - intros (b & E & N1 & N2). destruct b as [|[|[|b]]]; cbn in *; try congruence. destruct b; discriminate.
Qed.
Example bx_ls_displaces a : (a =? 1)%Z = true <-> displaces bx_g true bx_ls a.
Proof.
  rewrite Z.eqb_eq. split.
  - intros ->. split; [reflexivity|]. exists 0. split; [reflexivity|]. split; [discriminate|reflexivity].
  - intros (_ & b & E & N1 & N2). destruct b as [|[|[|b]]]; cbn in *; try congruence. destruct b; discriminate.
Qed.
Example bx_ls_nowhere a : false = true <-> displaces bx_g false bx_ls a.
Proof. split; [discriminate|]. intros (E & _). exact E. Qed.

(** The same with a second component that no subdomain uses. *)
Definition bx_g2 : geometry := Geometry [bx_comp; bx_comp] [[1; 2; 3]; [1; 2; 3]]%Z [0] [[1; 2; 3]]%Z [1; 2; 3]%Z [] [] [].
Definition bx_fes2 : list fespace := bx_fes ++ bx_fes.
Definition bx_st3 : romst := RomSt (Rom 1 1 false ByDomain [0] 2 [1; 1]) true [] [DMat 2 1 [1; 2]%R; DMat 2 1 [1; 2]%R] [0] [0; 1] [0; 1; 2] [1].
Example bx_geo2 : geo_ok bx_g2.
Proof.
  split; [cbn; lia|]. split; [reflexivity|]. split; [reflexivity|]. split; [intros [|m] Hm; cbn in *; lia|]. split.
  { intros c Hc. assert (E : attrs_of bx_g2 c = [1; 2; 3]%Z /\ mesh_of bx_g2 c = bx_comp) by (destruct c as [|[|c]]; [split; reflexivity|split; reflexivity|cbn in Hc; lia]). destruct E as (-> & ->).
    cbn [bx_comp me_bdr map fst]. split; [|split; [|split]].
    - repeat constructor; cbn; intuition lia.
    - discriminate.
    - intros a H. cbn in H. intuition lia.
    - intros a. cbn. intuition. }
  split.
  { intros [|m] Hm; [|cbn in Hm; lia]. split; [reflexivity|]. intros a H; cbn in H; intuition lia. }
  split; [repeat constructor; cbn; intuition lia|]. split.
  { intros a H. exists 0. split; [cbn; lia|exact H]. }
  split; [reflexivity|]. intros k Hk. cbn in Hk. lia.
Qed.
Example bx_itf2 it : itf_ok bx_nu bx_g2 bx_fes2 bx_fes2 it.
Proof.
  assert (F : ports_fit bx_fes2 (g_refs bx_g2)) by (split; [intros p []|intros p f i []]).
  split; [reflexivity|]. split; [reflexivity|]. split; [exact F|]. split; [exact F|]. split.
  - intros p f i j [].
  - intros k Hk. cbn in Hk. lia.
Qed.
Example bx_bases3 : scalar_bases bx_st3 bx_g2 bx_fes2 (fun _ => 2).
Proof.
  split; [|split; [reflexivity|]; split; [reflexivity|]; split; [reflexivity|]; split; [reflexivity|]; intros [|[|c]] Hc; [reflexivity|reflexivity|cbn in Hc; lia]].
  split; [reflexivity|]. split. { unfold rom_wf, comp_of. cbn. repeat split; try lia. intros [|m] H; cbn; lia. }
  split; [reflexivity|]. split. { intros [|[|b]] Hb; [| |cbn in Hb; lia]; (split; [unfold dm_wf; cbn; reflexivity|]; split; reflexivity). }
  split. { split; [reflexivity|]. split; [reflexivity|]. intros [|m] v (H1 & H2); try (cbn in H1; lia); cbn in H2; subst v; reflexivity. }
  split; [reflexivity|]. intros [|m] v (H1 & H2); try (cbn in H1; lia); cbn in H2; subst v; reflexivity.
Qed.
