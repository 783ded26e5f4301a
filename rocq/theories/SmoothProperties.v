(** Properties of the block smoothers. *)
From Coq Require Import Reals List Bool Lia Arith ZArith Lra.
From Verif Require Import Outcome ListLemmas LaBase BlockVec RomBasisProofs MbModel MbSpec SmoothModel SmoothSpec SmoothProofs.
Import ListNotations.
Local Open Scope nat_scope.

(** A smoother for a matrix with invertible diagonal blocks can be built; its sweeps are the Gauss-Seidel ones. *)
Theorem C48_sweeps : forall A n size off invert, bm_fits n size A -> offsets off n size -> inverts invert n size A ->
  exists s, make_smoother invert A off off = Ok s /\
  forall ty it mode x y, (0 <= ty <= 2)%Z -> List.length x = nth n off 0 -> List.length y = nth n off 0 ->
  exists y', gs_mult s ty it mode x y = Ok y' /\
    gs_run (forward_step n size off A x) (backward_step n size off A x) ty (Z.to_nat it)
      (if mode then y else repeat 0%R (nth n off 0)) y'.
Proof.
  intros A n size off invert F O V. destruct (make_ok A n size off invert F O V) as (inv & E & _). eexists. split; [exact E|].
  intros ty it mode x y Ht Lx Ly. eapply mult_ok; eauto.
Qed.
Print Assumptions C48_sweeps.

(** A solution is left alone by any kind and number of sweeps. *)
Theorem C48_solution_kept : forall A n size off invert s x y ty it, bm_fits n size A -> offsets off n size -> inverts invert n size A ->
  make_smoother invert A off off = Ok s -> List.length x = nth n off 0 -> List.length y = nth n off 0 ->
  bm_solves n size off A x y -> gs_mult s ty it true x y = Ok y.
Proof. intros. eapply mult_fixed; eauto. Qed.
Print Assumptions C48_solution_kept.

(** Block Jacobi solves with the diagonal blocks; any other setting of it stops the program. *)
Theorem C48_jacobi : forall A n size off invert s x y, bm_fits n size A -> offsets off n size -> inverts invert n size A ->
  make_smoother invert A off off = Ok s -> List.length x = nth n off 0 -> List.length y = nth n off 0 ->
  (exists y', bd_mult s 0 1 false x y = Ok y' /\ List.length y' = nth n off 0 /\
    forall i k, i < n -> k < size i -> rsum (size i) (fun q => val (A i i) k q * ent off y' i q)%R = ent off x i k) /\
  (forall ty it mode, (ty, it, mode) <> (0%Z, 1%Z, false) -> bd_mult s ty it mode x y = Abort).
Proof.
  intros A n size off invert s x y F O V S Lx Ly. split; [eapply bd_ok; eauto|].
  intros ty it mode N. unfold bd_mult. destruct mode; [reflexivity|]. destruct (Z.eqb_spec ty 0); [|reflexivity]. destruct (Z.eqb_spec it 1); [|reflexivity].
  subst. congruence.
Qed.
Print Assumptions C48_jacobi.

(** A smoother given another matrix keeps the inverses of the old one; one built without a matrix never smooths at all. *)
Theorem C85_set_operator_refuted :
  (exists A B n size off invert s x y y', bm_fits n size A /\ bm_fits n size B /\ offsets off n size /\ inverts invert n size A /\ inverts invert n size B /\
     make_smoother invert A off off = Ok s /\ List.length x = nth n off 0 /\ List.length y = nth n off 0 /\
     gs_mult (set_operator s B) 1 1 false x y = Ok y' /\ ~ forward_step n size off B x (repeat 0%R (nth n off 0)) y') /\
  (forall B ty it x y, gs_mult (set_operator empty_smoother B) ty it true x y = Ok y).
Proof.
  split.
  - set (A := fun c => (fun i j : nat => if (i =? 0) && (j =? 0) then Some (FMat 1 1 (fun _ _ : nat => c)) else None) : blockmat).
    set (inv := fun M => Ok (FMat 1 1 (fun _ _ => (/ fm_val M 0 0)%R))).
    assert (Fit : forall c, bm_fits 1 (fun _ => 1) (A c)).
    { intros c. split.
      - intros [|i] [|j] X Hi Hj E; try lia. cbn in E. injection E as <-. auto.
      - intros [|i] Hi; [discriminate|lia]. }
    assert (Inv : forall c, c <> 0%R -> inverts inv 1 (fun _ => 1) (A c)).
    { intros c Hc [|i] M Hi E; [|lia]. cbn in E. injection E as <-. eexists. split; [reflexivity|]. split; [reflexivity|]. split; [reflexivity|].
      split; intros [|p] [|q] Hp Hq; try lia; cbn; field; auto. }
    exists (A 2%R), (A 4%R), 1, (fun _ => 1), [0; 1], inv. eexists. exists [4%R], [0%R]. eexists.
    split; [apply Fit|]. split; [apply Fit|]. split. { split; [reflexivity|]. split; [reflexivity|]. intros [|i] Hi; [reflexivity|lia]. }
    split; [apply Inv; lra|]. split; [apply Inv; lra|]. split; [reflexivity|]. split; [reflexivity|]. split; [reflexivity|]. split; [reflexivity|].
    intros (_ & H). specialize (H 0 0 ltac:(lia) ltac:(lia)). unfold block_row, ent, vnth in H. cbn in H. lra.
  - intros B ty it x y. unfold gs_mult. induction (Z.to_nat it); [reflexivity|]. rewrite MbVecProofs.ofor_S, IHn. cbn [obind].
    destruct (negb (ty =? 2)%Z); cbn; destruct (negb (ty =? 1)%Z); reflexivity.
Qed.
Print Assumptions C85_set_operator_refuted.

(** With the same diagonal blocks the smoother is the one of the new matrix. *)
Theorem C85_same_diagonal_partial : forall invert A B rows cols s, make_smoother invert A rows cols = Ok s ->
  (forall b, b < List.length rows - 1 -> B b b = A b b) -> make_smoother invert B rows cols = Ok (set_operator s B).
Proof.
  intros invert A B rows cols s E H. unfold make_smoother in *. apply oassert_ok in E as (E1 & E). rewrite E1. cbn [oassert].
  assert (X : forall l, (forall b, In b l -> b < List.length rows - 1) ->
    omap (fun b => match B b b with None => Abort | Some M => invert M end) l = omap (fun b => match A b b with None => Abort | Some M => invert M end) l).
  { induction l; intros Hl; cbn [omap]; auto. rewrite H by (apply Hl; left; auto). rewrite IHl by (intros; apply Hl; right; auto). reflexivity. }
  rewrite X by (intros b Hb; apply in_seq in Hb; lia). apply obind_ok in E as (inv & E2 & E). rewrite E2. cbn [obind]. injection E as <-. reflexivity.
Qed.
Print Assumptions C85_same_diagonal_partial.
