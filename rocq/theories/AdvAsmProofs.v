(** The matrix of the advection-diffusion solver. *)
From Coq Require Import Reals List Bool Lia Lra Arith ZArith String.
From Verif Require Import Outcome ListLemmas LaBase LinalgModel BlockVec RomModel RomProofs MbModel MbSpec EqpSpec EqpAccProofs IntegProofs ItfModel ItfSpec ProbModel BcModel BcProofs BupModel BupSpec BupFormProofs BupFullProofs BupSolverProofs AdvModel AdvSpec AdvProofs.
From Verif Require BcSpec.
Import ListNotations.
Local Open Scope nat_scope.

Lemma omap_ext_in {A B} (f f' : A -> outcome B) l : (forall x, In x l -> f x = f' x) -> omap f l = omap f' l.
Proof. induction l as [|x l IH]; intros H; [reflexivity|]. cbn [omap]. rewrite H by (left; auto). rewrite IH by (intros; apply H; right; auto). reflexivity. Qed.

(** Boundary types and data keep their sizes. *)
Lemma step_sized c L s o s' : step c L s o = Ok s' -> BcSpec.sized (ac_gattr c) (po_types (a_ps s)) (po_bdr (a_ps s)) -> BcSpec.sized (ac_gattr c) (po_types (a_ps s')) (po_bdr (a_ps s')).
Proof.
  intros E Sz. destruct o as [f m|g an fp p|]; cbn [step] in E.
  - unfold set_flow in E. apply oassert_ok in E as (_ & E). apply oassert_ok in E as (_ & E).
    assert (P : forall t k t', (let* fl := owrite (a_flow t) k (Some (List.length (a_coefs t))) in
      Ok (AState (a_coefs t ++ [Some (FFun f)]) fl (a_solvers t) (a_cur t) (a_forms t) (a_files t) (a_ps t))) = Ok t' -> a_ps t' = a_ps t).
    { intros t k t' H. apply obind_ok in H as (fl & _ & H). injection H as <-. reflexivity. }
    enough (a_ps s' = a_ps s) as -> by exact Sz. destruct (m =? -1)%Z.
    + unfold ofor in E. clear Sz. revert s E. generalize (seq 0 (ac_nsub c)) as l. induction l as [|k l IH]; intros s E; cbn [ofold] in E; [injection E as <-; reflexivity|].
      apply obind_ok in E as (t & Et & E). apply IH in E. apply P in Et. congruence.
    + eapply P; eauto.
  - unfold adv_set in E. apply obind_ok in E as (t & Et & E). apply obind_ok in E as (ps & Ep & E). injection E as <-. cbn [a_ps]. eapply poisson_set_sized; [exact Ep|].
    enough (a_ps t = a_ps s) as -> by exact Sz. destruct an; [injection Et as <-; reflexivity|]. unfold get_flow in Et. destruct fp as [q|]; [|discriminate].
    apply obind_ok in Et as ((u, l) & _ & Et). apply obind_ok in Et as (fs & _ & Et). apply obind_ok in Et as (cs & _ & Et). apply obind_ok in Et as ((cs', fl) & _ & Et). injection Et as <-. reflexivity.
  - unfold adv_build in E. apply obind_ok in E as (fs & _ & E). injection E as <-. exact Sz.
Qed.
Lemma exec_sized c L fs l s : exec c L fs l = Ok s -> BcSpec.sized (ac_gattr c) (po_types (a_ps s)) (po_bdr (a_ps s)).
Proof.
  intros E. unfold exec in E. apply obind_ok in E as (s0 & E0 & E).
  assert (S0 : BcSpec.sized (ac_gattr c) (po_types (a_ps s0)) (po_bdr (a_ps s0))).
  { unfold adv_new in E0. apply oassert_ok in E0 as (_ & E0). apply oassert_ok in E0 as (_ & E0). injection E0 as <-. apply poisson_new_sized. }
  revert s0 E E0 S0. induction l as [|o l IH]; intros s0 E E0 S0; cbn [ofold] in E; [injection E as <-; exact S0|].
  apply obind_ok in E as (s1 & E1 & E). clear E0. revert E. generalize (step_sized _ _ _ _ _ E1 S0). clear E1 S0. intros S1 E.
  clear IH. revert s1 S1 E. induction l as [|o' l IH]; intros s1 S1 E; cbn [ofold] in E; [injection E as <-; exact S1|]. apply obind_ok in E as (s2 & E2 & E). apply (IH s2); auto. eapply step_sized; eauto.
Qed.

(** ** Sums *)
Lemma bilinear_plus n n' a b v u : bilinear n n' (fun i j => a i j + b i j)%R v u = (bilinear n n' a v u + bilinear n n' b v u)%R.
Proof.
  unfold bilinear. rewrite <- rsum_plus. apply rsum_ext. intros i Hi. rewrite <- rsum_plus. apply rsum_ext. intros j Hj. ring.
Qed.
Lemma bilinear_ext n n' a b v u : (forall i j, a i j = b i j) -> bilinear n n' a v u = bilinear n n' b v u.
Proof. intros H. unfold bilinear. apply rsum_ext. intros i _. apply rsum_ext. intros j _. rewrite H. reflexivity. Qed.
Lemma bilinear_ind n n' (b : bool) a v u : bilinear n n' (fun i j => ind b (a i j)) v u = ind b (bilinear n n' a v u).
Proof.
  destruct b; cbn [ind]; [reflexivity|]. unfold bilinear. transitivity (rsum n (fun _ => 0%R)); [|apply rsum_zero]. apply rsum_ext. intros i _. transitivity (rsum n' (fun _ => 0%R)); [|apply rsum_zero]. apply rsum_ext. intros j _. ring.
Qed.
Lemma bilinear_rsum n n' k a v u : bilinear n n' (fun i j => rsum k (fun e => a e i j)) v u = rsum k (fun e => bilinear n n' (a e) v u).
Proof.
  unfold bilinear. rewrite (rsum_swap k n). apply rsum_ext. intros i _. rewrite (rsum_swap k n'). apply rsum_ext. intros j _. rewrite <- rsum_scal, <- rsum_scal_r. reflexivity.
Qed.
Lemma bilinear_lsum {A} n n' (a : A -> nat -> nat -> R) l v u : bilinear n n' (fun i j => EqpSpec.lsum (fun q => a q i j) l) v u = EqpSpec.lsum (fun q => bilinear n n' (a q) v u) l.
Proof.
  destruct l as [|d l]; [|].
  - unfold EqpSpec.lsum at 2. cbn. unfold bilinear. transitivity (rsum n (fun _ => 0%R)); [|apply rsum_zero]. apply rsum_ext. intros i _. transitivity (rsum n' (fun _ => 0%R)); [|apply rsum_zero]. apply rsum_ext. intros j _. unfold EqpSpec.lsum. cbn. ring.
  - rewrite (lsum_as_rsum _ d). rewrite <- bilinear_rsum. apply bilinear_ext. intros i j. rewrite (lsum_as_rsum _ d). reflexivity.
Qed.
Lemma bilinear_prod n n' k x y v u : bilinear n n' (fun i j => k * (x i * y j))%R v u = (k * (rsum n (fun i => v i * x i) * rsum n' (fun j => u j * y j)))%R.
Proof.
  unfold bilinear. rewrite <- rsum_scal_r, <- rsum_scal. apply rsum_ext. intros i _. rewrite <- rsum_scal, <- rsum_scal. apply rsum_ext. intros j _. ring.
Qed.

Section Mat.
  Variables (c : acfg) (dim : nat) (pts : nat -> nat -> list qpt) (nu0 : numerics) (g : geometry) (cfes : list fespace) (sigma kappa : R).
  Let nu := adv_numerics dim pts nu0.
  Hypothesis G : geo_ok g.

  Lemma conv_form m e n pe b v u : bilinear n n (fun i j => nu_dom nu (IConvection b pe) (AtSub m) e i j) v u =
    (pe * EqpSpec.lsum (fun q => q_w q * (rsum dim (fun d => speed b q d * slope n u q d) * value n v q)) (pts m e))%R.
  Proof.
    cbn [nu adv_numerics nu_dom]. rewrite bilinear_lsum, <- lsum_mul. apply lsum_ext_in. intros q _.
    transitivity (bilinear n n (fun i j => pe * q_w q * (q_shape q i * rsum dim (fun d => speed b q d * q_grad q j d)))%R v u).
    { apply bilinear_ext. intros i j. unfold speed, vel_at. destruct b; ring. }
    rewrite bilinear_prod. fold (value n v q). enough (rsum n (fun j => u j * rsum dim (fun d => speed b q d * q_grad q j d))%R = rsum dim (fun d => speed b q d * slope n u q d)%R) as -> by ring.
    unfold slope. transitivity (rsum n (fun j => rsum dim (fun d => speed b q d * (u j * q_grad q j d))%R)).
    - apply rsum_ext. intros j _. rewrite <- rsum_scal. apply rsum_ext. intros d _. ring.
    - rewrite rsum_swap. apply rsum_ext. intros d _. apply rsum_scal.
  Qed.
  Lemma diff_form m e n v u : bilinear n n (fun i j => nu_dom nu IDiffusion (AtSub m) e i j) v u =
    EqpSpec.lsum (fun q => q_w q * rsum dim (fun d => slope n u q d * slope n v q d))%R (pts m e).
  Proof.
    cbn [nu adv_numerics nu_dom]. rewrite bilinear_lsum. apply lsum_ext_in. intros q _.
    transitivity (bilinear n n (fun i j => rsum dim (fun d => q_w q * (q_grad q i d * q_grad q j d)))%R v u). { apply bilinear_ext. intros i j. apply eq_sym, rsum_scal. }
    rewrite bilinear_rsum, <- rsum_scal. apply rsum_ext. intros d _. rewrite bilinear_prod. unfold slope. ring.
  Qed.

  (** The integrators of all subdomains as one, whose result depends on the subdomain. *)
  Variable bs : list velocity.
  Let d0 := VelGrid [].
  Definition spread : numerics :=
    Numerics (fun I at_ e i j => match I, at_ with IConvection _ pe, AtSub m => nu_dom nu (IConvection (nth m bs d0) pe) (AtSub m) e i j | _, _ => nu_dom nu I at_ e i j end)
             (nu_int nu) (nu_bdr nu) (nu_itf nu).
  Definition spread_terms (_ : nat) : outcome terms := Ok ([IDiffusion; IConvection d0 (ac_pe c)], [], IDGDiffusion sigma kappa).

  Lemma spread_matrices meshes fes marks bcs : List.length bs = List.length meshes ->
    sub_matrices nu meshes fes fes (adv_terms sigma kappa (ac_pe c) bs) marks bcs = sub_matrices spread meshes fes fes spread_terms marks bcs.
  Proof.
    intros Lb. unfold sub_matrices. cbv zeta.
    rewrite (omap_ext_in _ (fun m =>
      let* me := oread meshes m in
      let* s := oread fes m in
      let* t := oread fes m in
      let* (dom, int, bd) := spread_terms m in
      let* ib := bdr_integs bd marks bcs m in
      form_matrix spread (AtSub m) me (sub_attrs me) (fe_size s) (fe_size t) (Form dom int ib)) (seq 0 (List.length meshes))); [reflexivity|].
    intros m Hm. apply in_seq in Hm. destruct (oread meshes m) as [me| |]; cbn [obind]; try reflexivity. destruct (oread fes m) as [s| |]; cbn [obind]; try reflexivity.
    unfold adv_terms, spread_terms. rewrite (oread_nth _ _ d0) by lia. cbn [obind]. reflexivity.
  Qed.

  Variables (types : list btype) (bdr : list (option coeff)) (enf : Z -> bool).
  Hypotheses (Sz : BcSpec.sized (g_gattr g) types bdr) (Ew : forall a, enf a = true <-> weak g types bdr a) (It : itf_ok nu g cfes cfes (IItfDiffusion sigma kappa)) (Lb : List.length bs = nsub g).

  Lemma adv_matrix : exists A, (let* fes := sub_fes g cfes in
      let* (meshes, marks, bcs) := sub_setup g (fun ms => weak_domain ms (g_gattr g) types bdr) in
      let* A := sub_matrices nu meshes fes fes (adv_terms sigma kappa (ac_pe c) bs) marks bcs in
      itf_matrices fes [nu_itf nu (IItfDiffusion sigma kappa)] (g_ports g) A) = Ok A /\
    forall m m' v u, m < nsub g -> m' < nsub g -> let n k := fe_size (fth cfes (type_of g k)) in let nel := me_nel (mesh_of g (type_of g m)) in
      bilinear (n m) (n m') (val (A m m')) v u =
        (ind (m =? m') (stiffness dim nel (n m) (pts m) v u + ac_pe c * transport dim nel (n m) (pts m) (nth m bs d0) v u)
         + bilinear (n m) (n m') (full_entry nu g cfes cfes [] [] (IDGDiffusion sigma kappa) (IItfDiffusion sigma kappa) enf m m') v u)%R.
  Proof.
    pose proof It as (L & _).
    destruct (setup_ok g G (fun ms => weak_domain ms (g_gattr g) types bdr) _ (proj2 (weak_ok (sattrs g) (g_gattr g) types bdr Sz))) as (marks & n & ES & Lm & U & V).
    set (fv := fun b => option_map (fun _ => tt) (BcSpec.enforced types bdr b)) in *.
    assert (Enf : forall a, enf a = true <-> exists b, nth_error (g_gattr g) b = Some a /\ fv b <> None) by (intros a; rewrite Ew; apply weak_fv).
    assert (It' : itf_ok spread g cfes cfes (IItfDiffusion sigma kappa)) by exact It.
    destruct (full_matrix spread g G fv enf Enf cfes cfes spread_terms [IDiffusion; IConvection d0 (ac_pe c)] [] (IDGDiffusion sigma kappa) (IItfDiffusion sigma kappa) marks n It') as (A & A' & P & EA & _ & EI & _ & VF & _); auto.
    exists A'. split.
    - rewrite sub_fes_ok by auto. cbn [obind]. rewrite ES. cbn [obind]. rewrite spread_matrices by (rewrite map_length, seq_length; exact Lb). rewrite EA. cbn [obind]. apply EI. reflexivity.
    - intros m m' v u Hm Hm' nn nel.
      rewrite (bilinear_ext _ _ _ (fun i j => (ind (m =? m') (rsum nel (fun e => nu_dom nu IDiffusion (AtSub m) e i j) + rsum nel (fun e => nu_dom nu (IConvection (nth m bs d0) (ac_pe c)) (AtSub m) e i j))
         + full_entry nu g cfes cfes [] [] (IDGDiffusion sigma kappa) (IItfDiffusion sigma kappa) enf m m' i j)%R)).
      2:{ intros i j. rewrite VF by auto. unfold full_entry. cbv zeta. fold nel. rewrite !lsum_cons. change (EqpSpec.lsum (fun I => rsum nel (fun e => nu_dom spread I (AtSub m) e i j)) []) with 0%R.
          change (EqpSpec.lsum (fun I => rsum nel (fun e => nu_dom nu I (AtSub m) e i j)) []) with 0%R. change (nu_bdr spread) with (nu_bdr nu). change (nu_int spread) with (nu_int nu). change (nu_itf spread) with (nu_itf nu).
          change (fun e => nu_dom spread IDiffusion (AtSub m) e i j) with (fun e => nu_dom nu IDiffusion (AtSub m) e i j).
          change (fun e => nu_dom spread (IConvection d0 (ac_pe c)) (AtSub m) e i j) with (fun e => nu_dom nu (IConvection (nth m bs d0) (ac_pe c)) (AtSub m) e i j).
          destruct (m =? m'); cbn [ind]; ring. }
      rewrite bilinear_plus, bilinear_ind. f_equal. destruct (Nat.eqb_spec m m') as [<-|_]; cbn [ind]; [|reflexivity]. rewrite bilinear_plus, !bilinear_rsum. unfold stiffness, transport. rewrite <- rsum_scal. f_equal.
      + apply rsum_ext. intros e _. apply diff_form.
      + apply rsum_ext. intros e _. apply conv_form.
  Qed.
End Mat.
