(** Concrete cases meeting the hypotheses of the theorems about hyper-reduction. *)
From Coq Require Import Reals List Bool Lia Arith ZArith Lra.
From Verif Require Import Outcome HdfModel LaBase BlockVec LinalgModel LinalgSpec ItfModel ItfSpec EqpModel EqpSpec EqpProofs EqpSetupProofs EqpEvalProofs EqpAccProofs
  EqpItfModel EqpItfSpec EqpItfProofs EqpOwnModel EqpOwnSpec EqpOwnProofs EqpOwnItfProofs.
Import ListNotations.
Local Open Scope nat_scope.

(** ** Samples *)

(** Two elements with two points each, on two processes: the tiny weight and the zero weight are dropped. *)
Example ex_samples : solution_samples 2 [[(1 / 2)%R; 0%R]; [(/ 10 ^ 13)%R; 3%R]] (Some [4; 7]) [0%R; 0%R; 0%R; 0%R] =
  Ok [{| si_el := 4%Z; si_qp := 0%Z; si_qw := (1 / 2)%R |}; {| si_el := 7%Z; si_qp := 1%Z; si_qw := 3%R |}].
Proof.
  assert (A1 : above (1 / 2) = true) by (apply above_spec; lra). assert (A2 : above 3 = true) by (apply above_spec; lra).
  assert (A3 : above 0 = false) by (destruct (above 0) eqn:E; auto; apply above_spec in E; lra).
  assert (A4 : above (/ 10 ^ 13) = false) by (destruct (above (/ 10 ^ 13)) eqn:E; auto; apply above_spec in E; lra).
  unfold solution_samples. rewrite gather_weights_ok by reflexivity. cbn [obind concat app]. unfold extract_samples. cbn [List.length ofor ofold seq].
  cbn [oread nth_error obind]. rewrite A1. cbn [oguard Nat.eqb negb obind]. cbn [oread nth_error obind]. rewrite A3. cbn [obind]. cbn [oread nth_error obind]. rewrite A4. cbn [obind].
  cbn [oread nth_error obind]. rewrite A2. reflexivity.
Qed.

(** ** A form on a mesh with two elements *)

(** The integrand [x0^2] tested with the first, [(m+1) x1] tested with the second shape function *)
Definition ex_quad (fe m : nat) (w : R) (x : vec) : vec := [(w * (vnth x 0 * vnth x 0))%R; (w * INR (m + 1) * vnth x 1)%R].
Definition ex_qgrad (fe m : nat) (w : R) (x : vec) : dmat := DMat 2 2 [(w * (2 * vnth x 0))%R; 0%R; 0%R; (w * INR (m + 1))%R].
Definition ex_site (d : list Z) : site := Site d 0 (fun x => x) (fun x => x) (fun M => M) ex_quad ex_qgrad.
Definition ex_sites : sites := [Some (ex_site [0; 1]%Z); None; Some (ex_site [1; 2]%Z)].
(** Basis of two functions; the variable starts at row 1. *)
Definition ex_basis : dmat := DMat 4 2 [9; 1; 2; 0;  9; 0; 1; 1]%R.

Lemma ex_site_ok a b : (0 <= a < 3)%Z -> (0 <= b < 3)%Z -> site_ok 3 (ex_site [a; b]) /\ plain (ex_site [a; b]) /\ weight_linear (ex_site [a; b]) /\ site_grad_ok (ex_site [a; b]).
Proof.
  intros Ha Hb. split; [|split; [|split]].
  - split; [|split; [|split]]; auto. intros d [<-|[<-|[]]]; unfold dofn; [destruct (Z.leb_spec 0 a)|destruct (Z.leb_spec 0 b)]; lia.
  - split; [discriminate|]. intros d [<-|[<-|[]]]; lia.
  - intros m w v phi. unfold form_at, dot, ex_site, ex_quad. cbn. unfold vnth. cbn. ring.
  - intros m w x _. cbn. unfold dm_wf. cbn. auto.
Qed.

Lemma ex_basis_set : exists B, set_basis 2 3 ex_basis 1 = Ok B.
Proof. eexists. vm_compute. reflexivity. Qed.

Lemma ex_rank_bound (r : nat) (P : nat -> Prop) : P 0 -> P 1 -> r < 2 -> P r.
Proof. intros. destruct r as [|[|r]]; auto. lia. Qed.

(** One snapshot, the two elements on two processes *)
Definition ex_snap : rmat := RMat 3 1 true [1; 3; 1]%R.
Lemma ex_system : forall B, set_basis 2 3 ex_basis 1 = Ok B ->
  exists Gs rhs, setup_system 2 [(1 / 2)%R; (1 / 2)%R] ex_sites [0; 2] B 3 ex_snap [1; 1] (fun _ => [7; 7; 7; 7]%R) (fun _ => [7; 7]%R) = Ok (Gs, rhs) /\
    List.length rhs = 2 /\ vnth rhs 0 = 28%R /\ vnth rhs 1 = 15%R.
Proof.
  intros B EB. destruct (setup_system_ok 2 [(1 / 2)%R; (1 / 2)%R] ex_sites [0; 2] ex_basis 1 2 3 B ex_snap [1; 1] (fun _ => [7; 7; 7; 7]%R) (fun _ => [7; 7]%R)) as (Gs & rhs & E & _ & L & _ & _ & V); auto; try reflexivity; try (unfold dm_wf; cbn; lia).
  - intros id [<-|[<-|[]]]; eexists; (split; [reflexivity|]); apply ex_site_ok; lia.
  - intros r. apply (ex_rank_bound r (fun r => List.length _ = nth r [1; 1] 0 * 2 * (2 * rm_c ex_snap))); reflexivity.
  - intros r. apply (ex_rank_bound r (fun r => List.length _ = nth r [1; 1] 0 * 2)); reflexivity.
  - exists Gs, rhs. split; [exact E|]. split; [exact L|]. split.
    + rewrite (V 0 0 ltac:(cbn; lia) ltac:(cbn; lia) : vnth rhs 0 = _). unfold form_at, dot, on_dofs, mode, mget, rget, vnth, pick_site, ex_site, ex_quad, dofn, dofs. cbn. change (Pos.to_nat 1) with 1. change (Pos.to_nat 2) with 2. cbn. lra.
    + rewrite (V 0 1 ltac:(cbn; lia) ltac:(cbn; lia) : vnth rhs 1 = _). unfold form_at, dot, on_dofs, mode, mget, rget, vnth, pick_site, ex_site, ex_quad, dofn, dofs. cbn. change (Pos.to_nat 1) with 1. change (Pos.to_nat 2) with 2. cbn. lra.
Qed.

(** Two of the four points suffice: the sample weights reproduce the right-hand side exactly. *)
Definition ex_weights : list vec := [[0%R; (5 / 11)%R]; [(27 / 22)%R; 0%R]].

Lemma ex_transpose : forall B Gs rhs, set_basis 2 3 ex_basis 1 = Ok B ->
  setup_system 2 [(1 / 2)%R; (1 / 2)%R] ex_sites [0; 2] B 3 ex_snap [1; 1] (fun _ => [7; 7; 7; 7]%R) (fun _ => [7; 7]%R) = Ok (Gs, rhs) ->
  List.length rhs = 2 /\ forall c, c < 2 -> vnth (transpose_mult 2 (combine Gs ex_weights)) c = vnth rhs c.
Proof.
  intros B Gs rhs EB E. destruct (ex_system B EB) as (Gs' & rhs' & E' & L & V0 & V1). rewrite E' in E. injection E as -> ->. split; [exact L|].
  destruct (setup_system_ok 2 [(1 / 2)%R; (1 / 2)%R] ex_sites [0; 2] ex_basis 1 2 3 B ex_snap [1; 1] (fun _ => [7; 7; 7; 7]%R) (fun _ => [7; 7]%R)) as (Gs' & rhs' & E2 & LG & _ & Sh & G & _); auto; try reflexivity; try (unfold dm_wf; cbn; lia).
  { intros id [<-|[<-|[]]]; eexists; (split; [reflexivity|]); apply ex_site_ok; lia. }
  { intros r. apply (ex_rank_bound r (fun r => List.length _ = nth r [1; 1] 0 * 2 * (2 * rm_c ex_snap))); reflexivity. }
  { intros r. apply (ex_rank_bound r (fun r => List.length _ = nth r [1; 1] 0 * 2)); reflexivity. }
  rewrite E' in E2. injection E2 as <- <-. destruct Gs as [|G0 [|G1 [|? ?]]]; try discriminate LG.
  destruct (Sh 0) as (W0 & R0 & C0); [cbn; lia|]. destruct (Sh 1) as (W1 & R1 & C1); [cbn; lia|]. cbn in W0, R0, C0, W1, R1, C1.
  assert (Ev : forall r e m j, r < 2 -> e = r -> m < 2 -> j < 2 -> rget (nth r [G0; G1] (RMat 0 0 true [])) m j = form_at (nth r [ex_site [0; 1]%Z; ex_site [1; 2]%Z] (ex_site [])) m 1 (fun k => rget ex_snap k 0) (mode ex_basis 1 j)).
  { intros r e m j Hr -> Hm Hj. specialize (G r r m 0 j (nth r [ex_site [0; 1]%Z; ex_site [1; 2]%Z] (ex_site []))). destruct r as [|[|r]]; [| |lia]; cbn [firstn list_sum fold_right Nat.sub Nat.mul Nat.add] in G; apply G; auto; unfold site_split, at_site; cbn; try lia; reflexivity. }
  intros c Hc. unfold transpose_mult, ex_weights. cbn [combine map seq fold_right fst snd]. unfold rget in Ev.
  assert (X0 := Ev 0 0 0 c). assert (X1 := Ev 0 0 1 c). assert (X2 := Ev 1 1 0 c). assert (X3 := Ev 1 1 1 c). cbn [nth] in X0, X1, X2, X3.
  unfold rget in X0, X1, X2, X3. rewrite C0 in X0, X1. rewrite C1 in X2, X3.
  destruct c as [|[|c]]; [| |lia]; [rewrite V0|rewrite V1]; unfold vnth at 1; cbn [nth]; rewrite R0, R1, C0, C1; cbn [rsum];
    rewrite X0, X1, X2, X3 by lia; unfold form_at, dot, on_dofs, mode, mget, rget, pick_site, ex_site, ex_quad, dofn, dofs, vnth; cbn; change (Pos.to_nat 1) with 1; change (Pos.to_nat 2) with 2; cbn; lra.
Qed.

(** All hypotheses of the accuracy theorem hold for this solution. *)
Example ex_training : forall B Gs rhs, set_basis 2 3 ex_basis 1 = Ok B ->
  setup_system 2 [(1 / 2)%R; (1 / 2)%R] ex_sites [0; 2] B 3 ex_snap [1; 1] (fun _ => [7; 7; 7; 7]%R) (fun _ => [7; 7]%R) = Ok (Gs, rhs) ->
  (forall k, k < 4 -> (0 <= vnth (concat ex_weights) k)%R) /\
  (forall c, c < 2 -> (vnth (fst (eqp_bounds (1 / 100) rhs)) c <= vnth (transpose_mult 2 (combine Gs ex_weights)) c <= vnth (snd (eqp_bounds (1 / 100) rhs)) c)%R) /\
  (exists l, solution_samples 2 ex_weights (Some [0; 2]) [0; 0; 0; 0]%R = Ok l) /\
  (forall r, r < 3 -> lift ex_basis 1 [1; 1]%R r = rget ex_snap r 0).
Proof.
  intros B Gs rhs EB E. destruct (ex_transpose B Gs rhs EB E) as (L & V). split; [|split; [|split]].
  - intros k Hk. unfold vnth, ex_weights. do 4 (destruct k as [|k]; [cbn; lra|]). lia.
  - intros c Hc. rewrite V by auto. destruct rhs as [|r0 [|r1 [|? ?]]]; try discriminate L. unfold eqp_bounds, vnth.
    pose proof (Rabs_pos r0). pose proof (Rabs_pos r1). destruct c as [|[|c]]; [cbn; lra|cbn; lra|lia].
  - destruct (samples_ok 2 ex_weights [0; 2] [0; 0; 0; 0]%R) as (l & El & _); auto; [cbn; split; [intros b Hb; lia|split; [intros b []|exact I]]|]. eauto.
  - intros r Hr. unfold lift, rget, mget, vnth. do 3 (destruct r as [|r]; [cbn; lra|]). lia.
Qed.

(** ** Evaluation *)

(** Samples in no particular order, an element twice in a row, one place twice *)
Definition ex_smps : list (sinfo R) :=
  [{| si_el := 2%Z; si_qp := 1%Z; si_qw := 2%R |}; {| si_el := 2%Z; si_qp := 0%Z; si_qw := 1%R |}; {| si_el := 0%Z; si_qp := 1%Z; si_qw := 3%R |}; {| si_el := 2%Z; si_qp := 1%Z; si_qw := (1 / 2)%R |}].
Definition ex_integ : integ := Integ (Some 2) ex_sites [3; 1; 3]%Z (Some [0; 0; 1]%Z) (Some ex_smps).

Lemma ex_integ_fits : integ_fits 3 ex_integ /\ integ_grad_fits ex_integ.
Proof.
  assert (S0 : forall s, In s ex_smps -> si_el s = 0%Z \/ si_el s = 2%Z) by (intros s [<-|[<-|[<-|[<-|[]]]]]; cbn; auto).
  split.
  - split; [discriminate|]. exists ex_smps. split; [reflexivity|]. intros s Hs. assert (Q : (0 <= si_qp s < 2)%Z) by (destruct Hs as [<-|[<-|[<-|[<-|[]]]]]; cbn; lia).
    destruct (S0 s Hs) as [Es|Es]; (split; [rewrite Es; lia|]); (split; [eexists; unfold site_of; rewrite Es; split; [reflexivity|]; split; apply ex_site_ok; lia|]);
      (split; [exists 2; split; [reflexivity|exact Q]|]); unfold mark_fits; cbn [in_mark ex_integ]; exists 3%Z, 1%Z; rewrite Es; cbn; repeat split; lia.
  - intros s st Hs. cbn in Hs. unfold site_of. destruct (S0 s Hs) as [Es|Es]; rewrite Es; cbn; change (Pos.to_nat 2) with 2; cbn; intros Q; injection Q as <-; apply ex_site_ok; lia.
Qed.

Example ex_mult : forall B, set_basis 2 3 ex_basis 1 = Ok B -> exists z, form_mult 2 (Some B) [ex_integ; ex_integ] [1; 1]%R [0; 0]%R = Ok z /\ vnth z 0 = 204%R.
Proof.
  intros B EB. destruct (form_mult_ok 2 3 ex_basis 1 B [ex_integ; ex_integ] [1; 1]%R [0; 0]%R) as (z & E & _ & V); auto; [unfold dm_wf; cbn; lia|intros I [<-|[<-|[]]]; apply ex_integ_fits|].
  exists z. split; [exact E|]. rewrite V by auto. unfold samples_of, sample_form, site_of, form_at, dot, on_dofs, mode, lift, mget, ex_site, ex_quad, dofn, dofs, vnth. cbn.
  repeat (progress (change (Pos.to_nat 1) with 1%nat; change (Pos.to_nat 2) with 2%nat; cbn)). lra.
Qed.

Example ex_gradient : forall B, set_basis 2 3 ex_basis 1 = Ok B -> exists J, form_gradient 2 (Some B) [ex_integ] None [1; 1]%R = Ok J /\ mget J 0 0 = 114%R /\ mget J 1 0 = 54%R.
Proof.
  intros B EB. destruct (form_gradient_ok 2 3 ex_basis 1 B [ex_integ] None [1; 1]%R) as (J & E & _ & _ & _ & V); auto; [unfold dm_wf; cbn; lia|discriminate|intros I [<-|[]]; split; apply ex_integ_fits|].
  exists J. split; [exact E|]. rewrite !V by auto. unfold samples_of, sample_grad, site_of, grad_at, rap, on_dofs, mode, lift, mget, ex_site, ex_qgrad, dofn, dofs, vnth. cbn.
  repeat (progress (change (Pos.to_nat 1) with 1%nat; change (Pos.to_nat 2) with 2%nat; cbn)). unfold mget, vnth. cbn. split; lra.
Qed.

(** ** Interfaces *)

Definition ex_iquad (m : nat) (w : R) (x y : vec) : vec * vec := ([(w * (vnth x 0 * vnth y 0))%R; (w * vnth x 1)%R], [(w * INR (m + 1) * (vnth y 0 * vnth x 0))%R]).
Definition ex_igrad (m : nat) (w : R) (x y : vec) (a b : bool) : dmat :=
  match a, b with
  | true, true => DMat 2 2 [(w * vnth y 0)%R; 0%R; 0%R; w]
  | true, false => DMat 2 1 [(w * vnth x 0)%R; 0%R]
  | false, true => DMat 1 2 [(w * INR (m + 1) * vnth y 0)%R; 0%R]
  | false, false => DMat 1 1 [(w * INR (m + 1) * vnth x 0)%R]
  end.
Definition ex_isite : isite := ISite [0; 1]%Z [1]%Z ex_iquad ex_igrad.
Definition ex_ismps : list (sinfo R) := [{| si_el := 0%Z; si_qp := 1%Z; si_qw := 2%R |}; {| si_el := 0%Z; si_qp := 0%Z; si_qw := 1%R |}].
(** Two ports between two subdomains, the second in the opposite direction; the second has no samples for the second integrator. *)
Definition ex_iform : iform := IForm [Some 2; Some 2] [Some ex_ismps; Some ex_ismps; Some ex_ismps; None] [RPort 0 1; RPort 1 0]
  (fun _ _ => [Some ex_isite]) [Some (DMat 3 1 [9; 1; 2]%R); Some (DMat 2 2 [1; 0; 1; 2]%R)] [1; 0].

Lemma ex_isite_ok : isite_ok 2 2 ex_isite /\ iplain ex_isite /\ isite_grad_ok ex_isite.
Proof.
  split; [|split].
  - split; [intros d [<-|[<-|[]]]; cbn; lia|]. split; [intros d [<-|[]]; cbn; lia|]. intros m w x y _ _. cbn. auto.
  - split; [discriminate|]. split; [discriminate|]. split; [intros d [<-|[<-|[]]]; lia|intros d [<-|[]]; lia].
  - intros m w x y a b _ _. destruct a, b; cbn; unfold dm_wf; cbn; auto.
Qed.

Lemma ex_iform_fits : form_fits ex_iform (fun _ => 2) /\ form_grad_fits ex_iform.
Proof.
  assert (S0 : forall k p s, In s (ismp ex_iform k p) -> In s ex_ismps).
  { intros k p s. unfold ismp. destruct (p + k * List.length (fo_ports ex_iform)) as [|[|[|[|q]]]]; cbn; auto; try tauto. destruct q; cbn; tauto. }
  split.
  - split; [reflexivity|]. split; [|split; [reflexivity|split]].
    + intros i Hi. cbn in Hi. destruct i as [|[|i]]; [| |lia]; eexists; (split; [reflexivity|]); unfold dm_wf, voff; cbn; lia.
    + intros p Hp. cbn in Hp. destruct p as [|[|p]]; cbn; lia.
    + intros k Hk. cbn in Hk. exists 2. split; [destruct k as [|[|k]]; [reflexivity|reflexivity|lia]|]. intros p Hp s Hs. apply S0 in Hs.
      destruct Hs as [<-|[<-|[]]]; (split; [cbn; lia|]); (split; [exists ex_isite; split; [reflexivity|]; split; apply ex_isite_ok|]); cbn; lia.
  - intros k p s t Hk Hp Hs. apply S0 in Hs. destruct Hs as [<-|[<-|[]]]; intros Q; injection Q as <-; apply ex_isite_ok.
Qed.

Example ex_iform_mult : exists off z, block_offsets (fo_bases ex_iform) = Ok off /\ itf_add_mult ex_iform off [1; 1; 2]%R [5; 5; 5]%R = Ok z /\ vnth z 0 = (5 + 24 + 24 + 60)%R.
Proof.
  destruct (itf_add_mult_ok ex_iform (fun _ => 2) [1; 1; 2]%R [5; 5; 5]%R) as (off & z & E1 & E2 & _ & V); [apply ex_iform_fits|reflexivity|reflexivity|].
  exists off, z. split; [exact E1|]. split; [exact E2|]. rewrite (V 0 0 ltac:(cbn; lia) ltac:(cbn; lia) : vnth z 0 = _).
  unfold isample_form, iform_at, istate, imode, ismp, iport, coefs, on_dofs, dot, mode, lift, mget, ex_isite, ex_iquad, dofn, dofs, vnth. cbn.
  repeat (progress (change (Pos.to_nat 1) with 1%nat; change (Pos.to_nat 2) with 2%nat; cbn)). lra.
Qed.

Example ex_grid : grid_fits ex_iform (Grid 2 (fun i j => SMat (width ex_iform i) (width ex_iform j) false (fun _ _ => None))).
Proof. split; [reflexivity|]. intros i j _ _. cbn. repeat split. discriminate. Qed.

(** ** Ownership *)

(** A reference form, two views of it, retraining before the views exist *)
Definition ex_pre : list (wop nat) := [WNew true; WAdd 0 KDomain; WAdd 0 KBdr; WUpdate 0 KDomain 0 10; WUpdate 0 KDomain 0 11; WUpdate 0 KBdr 0 12].
Definition ex_post : list (wop nat) := [WNew false; WAdd 1 KDomain; WShare 1 KDomain 0 0 KDomain 0; WNew false; WAdd 2 KBdr; WShare 2 KBdr 0 0 KBdr 0; WDelete 1].

Lemma on_alive_all (l : list (option bool)) (ops : list (wop nat)) :
  (fix ok l ops := match ops with [] => True | o :: ops => on_alive l o /\ ok (alive_step l o) ops end) l ops ->
  forall p o q, ops = p ++ o :: q -> on_alive (fold_left alive_step p l) o.
Proof.
  revert l. induction ops as [|o ops IH]; intros l H p o' q E; [destruct p; discriminate|]. destruct H as (H & K). destruct p as [|x p]; injection E as -> E; [exact H|].
  cbn [fold_left]. eapply IH; eauto.
Qed.

Example ex_script : script (ex_pre ++ ex_post) /\ (forall o, In o ex_pre -> no_share o).
Proof.
  split.
  - red. unfold alive. apply on_alive_all. cbn. repeat split; eauto.
  - intros o H. repeat (destruct H as [<-|H]; [exact I|]). destruct H.
Qed.
Example ex_view : exists w, wrun (ex_pre ++ ex_post) = Ok w /\ wuse w 2 KBdr 0 = Ok 12 /\ wuse w 0 KDomain 0 = Ok 11.
Proof.
  destruct (wrun (ex_pre ++ ex_post)) as [w| |] eqn:E; [|vm_compute in E; discriminate E|vm_compute in E; discriminate E].
  exists w. split; [reflexivity|]. vm_compute in E. injection E as <-. split; reflexivity.
Qed.
Lemma keeps_refs_all (l : list (option bool)) (ops : list (wop nat)) :
  (fix ok l ops := match ops with [] => True | o :: ops => keeps_refs l o /\ ok (alive_step l o) ops end) l ops ->
  forall p o q, ops = p ++ o :: q -> keeps_refs (fold_left alive_step p l) o.
Proof.
  revert l. induction ops as [|o ops IH]; intros l H p o' q E; [destruct p; discriminate|]. destruct H as (H & K). destruct p as [|x p]; injection E as -> E; [exact H|].
  cbn [fold_left]. eapply IH; eauto.
Qed.
Example ex_phase2 : phase2 ex_pre ex_post.
Proof. intros p o q E. unfold alive. rewrite fold_left_app. eapply keeps_refs_all; [|exact E]. cbn. repeat split. Qed.

(** Three ports of two kinds, two integrators, samples both trained and read from files *)
Definition ex_iops : list (iop nat) := [IAdd; IUpdate 0 1 5; IAdd; ILoad 1 (fun t => 20 + t); IUpdate 0 1 6; ILoad 1 (fun t => 30 + t); IUpdate 1 0 7].
Lemma iscript_all (ops : list (iop nat)) : forall n,
  (fix ok n ops := match ops with [] => True | o :: ops => match o with ILoad k _ => k < n | _ => True end /\ ok (match o with IAdd => S n | _ => n end) ops end) n ops ->
  forall p k file q, ops = p ++ ILoad k file :: q -> k < n + integrators p.
Proof.
  induction ops as [|o ops IH]; intros n H p k file q E; [destruct p; discriminate|]. destruct H as (H & K). destruct p as [|x p]; injection E as -> E; [cbn; lia|].
  specialize (IH _ K p k file q E). destruct x; unfold integrators in *; cbn in *; lia.
Qed.
Example ex_iscript : iscript ex_iops /\ exists s, irun [1; 0; 1] 2 ex_iops = Ok s /\ iuse [1; 0; 1] s 0 2 = Ok (Some 6) /\ iuse [1; 0; 1] s 1 1 = Ok (Some 7) /\ iuse [1; 0; 1] s 0 1 = Ok None.
Proof.
  split.
  - intros p k file q E. apply (iscript_all ex_iops 0) with (2 := E). cbn. repeat split; lia.
  - destruct (irun [1; 0; 1] 2 ex_iops) as [s| |] eqn:E; [|vm_compute in E; discriminate E|vm_compute in E; discriminate E].
    exists s. split; [reflexivity|]. vm_compute in E. injection E as <-. repeat split.
Qed.
