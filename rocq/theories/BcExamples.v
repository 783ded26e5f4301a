(** Cases that meet the hypotheses of the theorems, and runs that refute them. *)
From Coq Require Import Reals List Bool Lia Arith ZArith Ascii String Lra.
From Verif Require Import Outcome LaBase MbModel ProbModel ProbSpec ProbProofs ProbFormulaProofs ProbExamples BcModel BcSpec BcProofs BcFlowProofs BcFluxProofs.
Import ListNotations.
Local Open Scope string_scope.
Local Open Scope list_scope.
Local Open Scope R_scope.

(** A predefined problem as it is created *)
Lemma exb_plain n : In n (map fst tables) -> pb_kind (proto n) = KPlain -> exists g', configured n exq_g [] (proto n) g'.
Proof.
  intros Hn K. destruct (accepted n exq_g [] Hn ltac:(intros x []) ltac:(intros -> l1 l2 E; destruct l1; discriminate)) as (p & g' & C). exists g'. rewrite <- (plain _ _ _ _ _ C K). exact C.
Qed.

(** Only these fields matter to the flow solver. *)
Definition mini (b : list Z) (t : list btype) (v : list (option vfun)) : problem := with_bdr (base_problem "") b t [] v.
Lemma stokes_fields full_dg dim gattr meshes junk g p s : pb_vrhs p = None ->
  stokes_set full_dg dim gattr meshes junk g p s = stokes_set full_dg dim gattr meshes junk g (mini (pb_battr p) (pb_types p) (pb_vbdr p)) s.
Proof. intros E. unfold stokes_set, nonzero_bdr, stokes_case. cbn [mini with_bdr pb_battr pb_types pb_vbdr pb_vrhs base_problem]. rewrite E. reflexivity. Qed.

Lemma exb_pos a l : forallb (Z.ltb 0) l = true -> In a l -> (0 < a)%Z.
Proof. intros H Ha. rewrite forallb_forall in H. apply Z.ltb_lt. auto. Qed.
Fixpoint nodup_z (l : list Z) : bool := match l with [] => true | x :: t => negb (existsb (Z.eqb x) t) && nodup_z t end.
Lemma nodup_z_ok l : nodup_z l = true -> NoDup l.
Proof.
  induction l as [|x l IH]; cbn; intros H; [constructor|]. apply andb_prop in H as (A & B). constructor; auto. intros Hi. apply negb_true_iff in A. enough (existsb (Z.eqb x) l = true) by congruence. apply existsb_exists. exists x. split; auto. apply Z.eqb_refl.
Qed.
Definition exb_attr : list Z := [1; 2; 3; 4; 5]%Z.
Lemma exb_attr_ok : NoDup exb_attr /\ (0 < List.length exb_attr)%nat /\ forall a, In a exb_attr -> (0 < a)%Z.
Proof. split; [apply nodup_z_ok; reflexivity|]. split; [cbn; lia|]. intros a. apply exb_pos. reflexivity. Qed.

Definition listedb (p : problem) : bool := nodup_z (pb_battr p) && forallb (Z.ltb 0) (pb_battr p).
Lemma listedb_ok p : listedb p = true -> listed p.
Proof. intros H. apply andb_prop in H as (A & B). split; [apply nodup_z_ok; auto|]. intros a. apply exb_pos. auto. Qed.
Definition completeb {F} (p : problem) (fs : list (option F)) : bool :=
  (List.length (pb_types p) =? List.length (pb_battr p))%nat && (List.length fs =? List.length (pb_battr p))%nat
  && forallb (fun tf => match tf with (BDirichlet, None) => false | _ => true end) (combine (pb_types p) fs).
Lemma completeb_ok {F} p (fs : list (option F)) : completeb p fs = true -> complete p fs.
Proof.
  intros H. apply andb_prop in H as (H & B). apply andb_prop in H as (A1 & A2). apply Nat.eqb_eq in A1. apply Nat.eqb_eq in A2. split; auto. split; auto. intros i E1 E2. rewrite forallb_forall in B.
  assert (In (BDirichlet, None) (combine (pb_types p) fs)); [|specialize (B _ H); discriminate]. clear - E1 E2. revert fs i E1 E2. induction (pb_types p) as [|t l IH]; intros [|f fs] [|i] E1 E2; try discriminate.
  - cbn in E1, E2. injection E1 as ->. injection E2 as ->. left. reflexivity.
  - right. exact (IH fs i E1 E2).
Qed.
Definition alignedb (gattr : list Z) (p : problem) : bool :=
  forallb (fun i => match nth_error (pb_types p) i with Some BZero => match nth_error gattr i, nth_error (pb_battr p) i with Some a, Some b => Z.eqb a b | None, None => true | _, _ => false end | _ => true end) (seq 0 (List.length (pb_types p))).
Lemma alignedb_ok gattr p : alignedb gattr p = true -> aligned gattr p.
Proof.
  intros H i E. unfold alignedb in H. rewrite forallb_forall in H. assert (Hi : (i < List.length (pb_types p))%nat) by (apply nth_error_Some; congruence). specialize (H i ltac:(apply in_seq; lia)). cbv beta in H. rewrite E in H.
  destruct (nth_error gattr i), (nth_error (pb_battr p) i); try discriminate; auto. apply Z.eqb_eq in H. congruence.
Qed.

(** Problems of both forms *)
Lemma exb_poisson_all : one_for_all (proto "poisson_component") /\ complete (proto "poisson_component") (pb_sbdr (proto "poisson_component")) /\ fresh_for (proto "poisson_component") (po_types (poisson_new exb_attr)).
Proof.
  assert (O : one_for_all (proto "poisson_component")) by reflexivity. split; auto. split; [apply completeb_ok; reflexivity|]. right. split; auto. cbn. intuition discriminate.
Qed.
Lemma exb_listed n : In n ["channel_flow"; "component_flow"; "lid_driven_cavity"; "backward_facing_step"; "force_driven_corner"] -> listed (proto n) /\ complete (proto n) (pb_vbdr (proto n)).
Proof. intros H. cbn in H. repeat (destruct H as [<-|H]; [split; [apply listedb_ok|apply completeb_ok]; reflexivity|]). destruct H. Qed.
Lemma exb_elastic n : In n ["linelast_disp"; "linelast_disp_lcantilever"; "linelast_disp_lattice"; "linelast_force_cantilever"; "linelast_cwtrain"] ->
  listed (proto n) /\ complete (proto n) (pb_vbdr (proto n)) /\ pb_gs (proto n) = [SLambda; SMu] /\ exists ic, nth_error (pb_gv (proto n)) 0 = Some ic.
Proof. intros H. cbn in H. repeat (destruct H as [<-|H]; [split; [apply listedb_ok; reflexivity|]; split; [apply completeb_ok; reflexivity|]; split; [reflexivity|eexists; reflexivity]|]). destruct H. Qed.

(** A channel is accepted with the outlet open. *)
Lemma exb_channel g : exists s', stokes_set false 2 exb_attr [] None g (proto "channel_flow") (stokes_new exb_attr (Some 0) (Some [0; 0])) = Ok s' /\ so_pres s' = true.
Proof.
  rewrite stokes_fields by reflexivity. assert (E1 : pb_battr (proto "channel_flow") = exb_attr) by reflexivity. assert (E2 : pb_types (proto "channel_flow") = [BZero; BNeumann; BZero; BDirichlet; BZero]) by reflexivity.
  assert (E3 : pb_vbdr (proto "channel_flow") = repeat (Some VChannel) 5) by reflexivity. rewrite E1, E2, E3. eexists. split; reflexivity.
Qed.

(** The unit square with one point on each side *)
Definition exb_side (a : Z) (x y nx ny : R) : belem := BElem a [QPoint [x; y] 1 [nx; ny]].
Definition exb_square : list (list belem) := [[exb_side 1 (/ 2) 0 0 (-1); exb_side 2 1 (/ 2) 1 0]; [exb_side 3 (/ 2) 1 0 1; exb_side 4 0 (/ 2) (-1) 0; exb_side 9 0 0 0 1]].
Lemma exb_square_points : points_ok 2 exb_square.
Proof.
  intros es e q He Hee Hq. cbn in He. destruct He as [<-|[<-|[]]]; cbn in Hee; repeat (destruct Hee as [<-|Hee]; [cbn in Hq; destruct Hq as [<-|[]]; reflexivity|]); destruct Hee.
Qed.
Lemma exb_component : let p := proto "component_flow" in let sel := inhomogeneous exb_attr p in
  listed p /\ complete p (pb_vbdr p) /\ aligned exb_attr p /\
  (forall a, In a exb_attr -> exists i, attr_find (pb_battr p) a 0 = Some i /\ (nth_error (pb_types p) i = Some BZero \/ (nth_error (pb_types p) i = Some BDirichlet /\ nth_error (pb_vbdr p) i = Some (Some VComponent)))) /\
  area_of exb_attr sel exb_square <> 0 /\ net_flux exb_attr sel exb_square (fun _ => outward (centre exb_attr sel exb_square 2)) <> 0.
Proof.
  intros p sel. assert (Es : forall i, sel i = nth i [true; true; true; true; false] false) by (intros i; unfold sel, inhomogeneous; f_equal).
  destruct (exb_listed "component_flow" ltac:(cbn; tauto)) as (Lp & C). split; [exact Lp|]. split; [exact C|]. split; [apply alignedb_ok; reflexivity|]. split.
  { intros a Ha. cbn in Ha. repeat (destruct Ha as [<-|Ha]; [eexists; split; [reflexivity|]; first [left; reflexivity|right; split; reflexivity]|]). destruct Ha. }
  clearbody sel. assert (A : area_of exb_attr sel exb_square = 4). { unfold area_of, exb_square, exb_side. cbn. rewrite !Es. cbn. ring. }
  split; [rewrite A; lra|].
  assert (M : centre exb_attr sel exb_square 2 = [/ 2; / 2]).
  { unfold centre. cbn [seq map]. rewrite A. unfold moment_of, exb_square, exb_side. cbn [lsum attr_find exb_attr be_attr be_q Z.eqb Pos.eqb qp_x qp_w]. rewrite !Es. unfold vnth. cbn [nth]. f_equal; [field|f_equal; field]. }
  rewrite M. unfold net_flux, exb_square, exb_side. cbn [lsum attr_find exb_attr be_attr be_q Z.eqb Pos.eqb qp_x qp_w qp_n]. rewrite !Es. unfold dot, outward, vnth. cbn [nth List.length seq map rsum]. lra.
Qed.
