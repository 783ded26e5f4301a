(** Proofs about the nonlinear term of the Navier-Stokes solver and its hyper-reduction: what the forms evaluate to. *)
From Coq Require Import Reals List Bool Lia Arith ZArith String Permutation Lra.
From Verif Require Import Outcome ListLemmas HdfModel LaBase LinalgModel LinalgSpec BlockVec RomModel RomSpec MbModel MbSpec EqpSpec ItfModel ItfSpec ProbModel BcModel BupModel BupSpec EqpModel NeqModel NeqSpec.
From Verif Require Import RomProofs RomBasisProofs EqpSetupProofs EqpEvalProofs BupFormProofs BupSolverProofs NeqProofs.
From Verif Require MbMiscProofs BupAsmProofs BcProofs BcSpec DgRhsProofs IntegProofs EqpAccProofs.
Import ListNotations.
Local Open Scope nat_scope.

Lemma lsum_flat {A B} (f : B -> R) (h : A -> list B) l : lsum f (flat_map h l) = lsum (fun a => lsum f (h a)) l.
Proof. induction l as [|a l IH]; [reflexivity|]. cbn [flat_map]. rewrite IntegProofs.lsum_app, IntegProofs.lsum_cons, IH. reflexivity. Qed.
Lemma lsum_perm {A} (f : A -> R) l l' : Permutation l l' -> lsum f l = lsum f l'.
Proof. induction 1; rewrite ?IntegProofs.lsum_cons; try congruence. lra. Qed.
Lemma lsum_one {A} (f : A -> R) a : lsum f [a] = f a.
Proof. cbn. ring. Qed.

Section Sum.
  Variables (g : geometry) (o : oper) (full_dg : bool) (types : list btype) (bdr : list (option coeff)) (m : nat).
  Hypotheses (G : geo_ok g) (Hm : m < nsub g).

  (** sum over the global boundaries that boundary [b] is one of: at most one *)
  Lemma over_gattr (f : nat -> R) a : rsum (List.length (g_gattr g)) (fun gi => ind (a =? nth gi (g_gattr g) 0)%Z (f gi)) =
    match attr_find (g_gattr g) a 0 with Some gi => f gi | None => 0%R end.
  Proof.
    pose proof G as (_ & _ & _ & _ & _ & _ & Nd & _). destruct (attr_find (g_gattr g) a 0) as [gi|] eqn:E.
    - pose proof (BcProofs.find_lt _ _ _ E) as Hg. pose proof (BcProofs.find_in _ _ _ E) as Ni. apply (nth_error_nth _ _ 0%Z) in Ni.
      rewrite (rsum_single (List.length (g_gattr g)) gi); auto.
      + rewrite Ni, Z.eqb_refl. reflexivity.
      + intros k Hk N. destruct (Z.eqb_spec a (nth k (g_gattr g) 0%Z)) as [Q|]; [|reflexivity]. exfalso. apply N.
        apply (proj1 (NoDup_nth (g_gattr g) 0%Z) Nd); auto. congruence.
    - rewrite (rsum_ext _ _ (fun _ => 0%R)); [apply rsum_zero|]. intros k Hk. destruct (Z.eqb_spec a (nth k (g_gattr g) 0%Z)) as [Q|]; [|reflexivity].
      exfalso. apply (BcProofs.find_out _ _ E). rewrite Q. apply nth_In. auto.
  Qed.

  (** sum over the boundaries of the component an element is on: exactly one *)
  Lemma over_attrs (f : nat -> R) e : e < List.length (me_bdr (mesh_of g (type_of g m))) ->
    exists b, b < List.length (row_of g m) /\ gat g m (fst (nth e (me_bdr (mesh_of g (type_of g m))) (0%Z, false))) = nth b (row_of g m) 0%Z /\
      rsum (List.length (row_of g m)) (fun b => ind (is_attr g (type_of g m) b e) (f b)) = f b.
  Proof.
    intros He. set (x := nth e (me_bdr (mesh_of g (type_of g m))) (0%Z, false)). destruct (gat_row g G m x Hm) as (b & Hb & Ex & Eg); [apply nth_In; auto|].
    exists b. split; [auto|]. split; [auto|]. rewrite (rsum_single _ b); auto.
    - unfold is_attr. fold x. rewrite Ex, Z.eqb_refl. reflexivity.
    - intros k Hk N. unfold is_attr. fold x. rewrite Ex. destruct (Z.eqb_spec (nth b (attrs_of g (type_of g m)) 0%Z) (nth k (attrs_of g (type_of g m)) 0%Z)) as [Q|]; [|reflexivity].
      exfalso. apply N. pose proof G as (_ & _ & _ & Ty & Gc & Gr & _). destruct (Gc _ (Ty m Hm)) as (Nd & _). destruct (Gr m Hm) as (Lr & _).
      symmetry. apply (proj1 (NoDup_nth _ 0%Z) Nd); auto; lia.
  Qed.
End Sum.

Lemma points_sum nm at_ t I sel v phi : rule_value nm at_ t I v phi (all_points nm at_ t I sel) =
  rsum (List.length (nn_sites nm at_ t I)) (fun e => ind (sel e) (place_term nm at_ t I v phi e)).
Proof.
  unfold rule_value, all_points. rewrite lsum_flat, IntegProofs.lsum_seq0. apply rsum_ext. intros e He. unfold place_term. destruct (sel e); cbn [ind]; [|reflexivity].
  destruct (nth e (nn_sites nm at_ t I) None) as [st|] eqn:E; [|reflexivity]. rewrite EqpAccProofs.lsum_map, IntegProofs.lsum_seq0. apply rsum_ext. intros q Hq.
  unfold point. cbn [si_el si_qp si_qw]. rewrite !Nat2Z.id, E. reflexivity.
Qed.

Section Sub.
  Variables (g : geometry) (s : romst) (cu cp : list fespace) (dim : nat -> nat).
  Hypotheses (G : geo_ok g) (SB : stokes_bases s g cu cp dim) (Lu : List.length cu = ncomp g).
  Variables (nm : nnum) (o : oper) (full_dg : bool) (types : list btype) (bdr : list (option coeff)).
  Hypothesis CL : closed g types bdr.
  Variables (marks : list (list Z)) (nmark : nat).
  Hypotheses (Lm : List.length marks = List.length (g_gattr g)) (Um : forall m a, m < nsub g -> In a (sub_attrs (smesh g m)) -> (a <= Z.of_nat nmark)%Z)
    (Vm : forall b, b < List.length (g_gattr g) -> exists mk, nth_error marks b = Some mk /\ List.length mk = nmark /\
        forall a, (0 < a <= Z.of_nat nmark)%Z -> nth (Z.to_nat a - 1) mk 0%Z = if (a =? nth b (g_gattr g) 0)%Z then 1%Z else 0%Z).

  (** the marker of global boundary [gi] at the attribute of a boundary element *)
  Lemma mark_at m e gi : m < nsub g -> e < List.length (me_bdr (mesh_of g (type_of g m))) -> gi < List.length (g_gattr g) ->
    let a := gat g m (fst (nth e (me_bdr (mesh_of g (type_of g m))) (0%Z, false))) in
    (1 <= a)%Z /\ nth_error (mark marks gi) (Z.to_nat (a - 1)) = Some (if (a =? nth gi (g_gattr g) 0)%Z then 1%Z else 0%Z).
  Proof. clear Lu.
    intros Hm He Hg a. assert (Ia : In a (sub_attrs (smesh g m))) by (apply smesh_attrs; eexists; split; [apply nth_In; eauto|reflexivity]).
    pose proof (smesh_pos g G m a Hm Ia) as Pa. pose proof (Um m a Hm Ia) as Ua. split; [lia|]. destruct (Vm gi Hg) as (mk & Em & Lk & V). unfold mark.
    rewrite (nth_error_nth _ _ [] Em). replace (Z.to_nat (a - 1)) with (Z.to_nat a - 1) by lia. rewrite <- V by lia. apply nth_error_nth'. lia.
  Qed.

  Variable tr : nat -> itype -> nat -> list (sinfo R).
  Variable m : nat.
  Hypotheses (Hm : m < nsub g) (RF : rules_fit nm g o full_dg types bdr cu tr m).
  Let c := type_of g m.
  Let n := fe_size (fth cu c).
  Definition sub_form (b : dmat) : eform :=
    EForm (dm_w (vbasis s (type_of g m))) [(flow o, Some (tr (type_of g m) Domain 0))] (map (fun I => (I, Some (tr (type_of g m) InteriorFace 0))) (ints o full_dg))
      (sub_bdrs g o types bdr marks m (tr (type_of g m))) (Some b).

  Lemma lies_fits at_ t I sm attrs mk : lies nm n at_ t I sm ->
    (match mk with None => True | Some k => exists a v, nth_error attrs (Z.to_nat (si_el sm)) = Some a /\ (1 <= a)%Z /\ nth_error k (Z.to_nat (a - 1)) = Some v /\ v <> 0%Z end) ->
    forall r, sample_fits n (Integ (Some (List.length (nn_w nm I))) (nn_sites nm at_ t I) attrs mk r) sm.
  Proof.
    intros (H1 & H2 & st & E & O & P & _) K r. split; [auto|]. split; [exists st; auto|]. split; [eexists; split; [reflexivity|auto]|]. exact K.
  Qed.

  Lemma sub_fits b I : In I (integs nm (AtSub m) (smesh g m) (sub_form b)) -> integ_fits n I /\ integ_grad_fits I.
  Proof.
    destruct RF as (R1 & R2 & R3). unfold integs, sub_form. cbn [ef_dom ef_int ef_bdr map]. rewrite !in_app_iff. intros [H|[H|H]].
    - cbn [In fst snd] in H. destruct H as [<-|[]]. split.
      + split; [discriminate|]. eexists. split; [reflexivity|]. intros sm Hs. apply lies_fits; auto.
      + intros sm st Hs Es. cbn [samples_of in_smp] in Hs. destruct (R1 sm Hs) as (_ & _ & st' & E & _ & _ & Gr). unfold site_of in Es. cbn [in_sites] in Es. replace st with st' by congruence. exact Gr.
    - apply in_map_iff in H as (x & <- & Hx). apply in_map_iff in Hx as (I0 & <- & HI). unfold ints in HI. destruct o eqn:Eo; [destruct HI|]. destruct full_dg eqn:Ed; [|destruct HI].
      destruct HI as [<-|[]]. cbn [fst snd]. specialize (R2 eq_refl eq_refl). split.
      + split; [discriminate|]. eexists. split; [reflexivity|]. intros sm Hs. apply lies_fits; auto.
      + intros sm st Hs Es. cbn [samples_of in_smp] in Hs. destruct (R2 sm Hs) as (_ & _ & st' & E & _ & _ & Gr). unfold site_of in Es. cbn [in_sites] in Es. replace st with st' by congruence. exact Gr.
    - apply in_map_iff in H as (x & <- & Hx). unfold sub_bdrs in Hx. destruct o eqn:Eo; [destruct Hx|]. apply in_flat_map in Hx as (b0 & Hb & Hx). apply in_seq in Hb. cbn [Nat.add] in Hb.
      unfold sub_bdr in Hx. destruct (attr_find (g_gattr g) (nth b0 (row_of g m) 0%Z) 0) as [gi|] eqn:Fd; [|destruct Hx]. destruct Hx as [<-|[]]. cbn [fst snd].
      pose proof (BcProofs.find_lt _ _ _ Fd) as Hg. pose proof (nth_error_nth _ _ 0%Z (BcProofs.find_in _ _ _ Fd)) as Eg.
      assert (Q : forall sm, In sm (tr (type_of g m) BdrFace (2 * b0 + wall types gi)) -> on_boundary g (type_of g m) b0 (Z.to_nat (si_el sm)) /\ lies nm (fe_size (fth cu (type_of g m))) (AtSub m) BdrFace (NLax (condition types bdr gi)) sm).
      { intros sm Hs. apply (R3 eq_refl b0 gi sm); auto; lia. }
      split.
      + split; [discriminate|]. eexists. split; [reflexivity|]. intros sm Hs. destruct (Q sm Hs) as ((x & Ex & Ea) & Li). apply lies_fits; auto.
        assert (He : Z.to_nat (si_el sm) < List.length (me_bdr (mesh_of g (type_of g m)))) by (apply nth_error_Some; congruence).
        destruct (mark_at m (Z.to_nat (si_el sm)) gi Hm He Hg) as (Pa & Ma). rewrite (nth_error_nth _ _ (0%Z, false) Ex) in *.
        assert (Ga : gat g m (fst x) = nth gi (g_gattr g) 0%Z). { rewrite Eg. rewrite <- (nth_error_nth _ _ 0%Z Ea). apply gat_at; auto. lia. }
        rewrite Ga, Z.eqb_refl in Ma. rewrite Ga in Pa. exists (nth gi (g_gattr g) 0%Z), 1%Z. split; [|split; [auto|split; [auto|discriminate]]].
        unfold smesh. cbn [me_bdr]. rewrite map_map, nth_error_map, Ex. cbn [option_map fst]. congruence.
      + intros sm st Hs Es. cbn [samples_of in_smp] in Hs. destruct (Q sm Hs) as (_ & _ & _ & st' & E & _ & _ & Gr). unfold site_of in Es. cbn [in_sites] in Es. replace st with st' by congruence. exact Gr.
  Qed.

  Lemma sub_sum b (val : itype -> nint -> list (sinfo R) -> R) (f : integ -> R) :
    (forall t I at' mk l, f (Integ (Some (List.length (nn_w nm I))) (nn_sites nm (AtSub m) t I) at' mk (Some l)) = val t I l) ->
    lsum f (integs nm (AtSub m) (smesh g m) (sub_form b)) = over_parts g o full_dg types bdr tr m val.
  Proof.
    intros Hf. unfold integs, sub_form. cbn [ef_dom ef_int ef_bdr]. rewrite !IntegProofs.lsum_app. cbn [map fst snd]. rewrite lsum_one, Hf. unfold over_parts. cbn zeta. f_equal.
    unfold ints, sub_bdrs. destruct o; [cbn; ring|]. f_equal.
    - destruct full_dg; cbn [map fst snd]; [rewrite lsum_one; apply Hf|reflexivity].
    - rewrite EqpAccProofs.lsum_map, lsum_flat, IntegProofs.lsum_seq0. apply rsum_ext. intros b0 Hb.
      rewrite (over_gattr g G (fun gi => val BdrFace (NLax (condition types bdr gi)) (tr (type_of g m) BdrFace (2 * b0 + wall types gi)))). unfold sub_bdr.
      destruct (attr_find (g_gattr g) (nth b0 (row_of g m) 0%Z) 0); [|reflexivity]. rewrite lsum_one. cbn [fst snd]. apply Hf.
  Qed.

  (** complete rules *)
  Lemma complete_sum v phi : rules_complete nm g o full_dg types bdr tr m -> places_match nm g ->
    over_parts g o full_dg types bdr tr m (fun t I l => rule_value nm (AtSub m) t I v phi l) = full_term nm g o full_dg types bdr m v phi.
  Proof.
    intros (C1 & C2 & C3) PM. unfold over_parts, full_term. cbn zeta. f_equal; [|destruct o eqn:Eo; [reflexivity|f_equal]].
    - unfold rule_value. rewrite (lsum_perm _ _ _ C1). apply points_sum.
    - destruct full_dg eqn:Ed; [|reflexivity]. unfold rule_value. rewrite (lsum_perm _ _ _ (C2 eq_refl eq_refl)). apply points_sum.
    - set (Lb := List.length (me_bdr (mesh_of g (type_of g m)))).
      rewrite (rsum_ext (List.length (row_of g m)) _ (fun b => rsum Lb (fun e => rsum (List.length (g_gattr g)) (fun gi =>
         ind (is_attr g (type_of g m) b e && (nth b (row_of g m) 0 =? nth gi (g_gattr g) 0)%Z)%bool (place_term nm (AtSub m) BdrFace (NLax (condition types bdr gi)) v phi e))))).
      + apply rsum_swap.
      + intros b Hb. rewrite (rsum_swap Lb (List.length (g_gattr g))). apply rsum_ext. intros gi Hg. destruct (Z.eqb_spec (nth b (row_of g m) 0%Z) (nth gi (g_gattr g) 0%Z)) as [Q|Q].
        * cbn [ind]. unfold rule_value. rewrite (lsum_perm _ _ _ (C3 eq_refl b gi Hb Hg Q)). fold (rule_value nm (AtSub m) BdrFace (NLax (condition types bdr gi)) v phi (all_points nm (AtSub m) BdrFace (NLax (condition types bdr gi)) (is_attr g (type_of g m) b))).
          rewrite points_sum, (PM m _ Hm). apply rsum_ext. intros e He. rewrite andb_true_r. reflexivity.
        * cbn [ind]. symmetry. rewrite (rsum_ext Lb _ (fun _ => 0%R)); [apply rsum_zero|]. intros e He. rewrite andb_false_r. reflexivity.
  Qed.
End Sub.

(** ** Full order *)

Section Full.
  Variables (g : geometry) (o : oper) (full_dg : bool) (types : list btype) (bdr : list (option coeff)).
  Hypotheses (G : geo_ok g) (CL : closed g types bdr).
  Variables (marks : list (list Z)) (nmark : nat).
  Hypotheses (Lm : List.length marks = List.length (g_gattr g)) (Um : forall m a, m < nsub g -> In a (sub_attrs (smesh g m)) -> (a <= Z.of_nat nmark)%Z)
    (Vm : forall b, b < List.length (g_gattr g) -> exists mk, nth_error marks b = Some mk /\ List.length mk = nmark /\
        forall a, (0 < a <= Z.of_nat nmark)%Z -> nth (Z.to_nat a - 1) mk 0%Z = if (a =? nth b (g_gattr g) 0)%Z then 1%Z else 0%Z).

  Definition bc_integ (m gi : nat) : list (nint * list Z) :=
    match attr_find (sub_attrs (smesh g m)) (nth gi (g_gattr g) 0%Z) 0 with
    | None => []
    | Some _ => [(NLax (condition types bdr gi), mark marks gi)]
    end.
  Definition bc_form (m : nat) : nform :=
    let h := ns_domain o full_dg in
    NForm (nf_dom h) (nf_int h) (match o with OBase => [] | OLax => flat_map (bc_integ m) (seq 0 (List.length (g_gattr g))) end).

  Lemma ns_bcs_ok : ns_bcs o (sattrs g) (g_gattr g) marks types bdr (repeat (ns_domain o full_dg) (nsub g)) = Ok (map bc_form (seq 0 (nsub g))).
  Proof.
    unfold ns_bcs, bc_form. destruct o.
    - f_equal. cbn [ns_domain nf_dom nf_int]. generalize (nsub g) 0. induction n as [|n IH]; intros k; cbn [repeat seq map]; [reflexivity|]. f_equal. apply IH.
    - assert (Ls : List.length (sattrs g) = nsub g) by (unfold sattrs; rewrite !map_length, seq_length; auto). rewrite repeat_length, Ls, Nat.eqb_refl. cbn [oassert].
      apply DgRhsProofs.omap_all. intros m Hm. apply in_seq in Hm. cbn [Nat.add] in Hm. destruct Hm as (_ & Hm).
      rewrite (oread_nth (repeat (ns_domain OLax full_dg) (nsub g)) m (ns_domain OLax full_dg)) by (rewrite repeat_length; auto). rewrite nth_repeat. cbn [obind].
      rewrite (oread_nth (sattrs g) m []) by lia. rewrite (sattrs_nth g m Hm). cbn [obind].
      match goal with |- ofor ?k ?f ?x = _ => destruct (ofor_inv k f (fun i h => h = NForm (nf_dom (ns_domain OLax full_dg)) (nf_int (ns_domain OLax full_dg)) (flat_map (bc_integ m) (seq 0 i))) x) as (h & E & V) end.
      + reflexivity.
      + intros i h Hi ->. rewrite (oread_nth _ _ 0%Z) by auto. cbn [obind]. rewrite seq_S, flat_map_app. cbn [flat_map Nat.add]. rewrite app_nil_r.
        assert (Eb : bc_integ m i = match attr_find (sub_attrs (smesh g m)) (nth i (g_gattr g) 0%Z) 0 with None => [] | Some _ => [(NLax (condition types bdr i), mark marks i)] end) by reflexivity.
        destruct (attr_find (sub_attrs (smesh g m)) (nth i (g_gattr g) 0%Z) 0) as [k|]; rewrite Eb.
        * rewrite (proj1 (ns_boundary_ok g types bdr CL i Hi)). cbn [obind]. rewrite (oread_nth marks i []) by lia. cbn [obind nf_dom nf_int nf_bdr]. eexists. split; reflexivity.
        * rewrite app_nil_r. eexists. split; reflexivity.
      + rewrite E, V. reflexivity.
  Qed.

  Lemma full_value (nm : nnum) m v phi : m < nsub g -> places_match nm g ->
    form_value nm (AtSub m) (smesh g m) (bc_form m) v phi = full_term nm g o full_dg types bdr m v phi.
  Proof.
    intros Hm PM. unfold form_value, full_term. cbn zeta. unfold bc_form. cbn [nf_dom nf_int nf_bdr].
    assert (All : forall t I, lsum (fun s => elem_value nm I s v phi) (nn_sites nm (AtSub m) t I) = rsum (List.length (nn_sites nm (AtSub m) t I)) (place_term nm (AtSub m) t I v phi)).
    { intros t I. rewrite (lsum_as_rsum _ None). apply rsum_ext. intros e He. reflexivity. }
    destruct o; cbn [ns_domain nf_dom nf_int flow].
    - rewrite lsum_one, All. cbn. ring.
    - rewrite lsum_one, All, Rplus_assoc. f_equal. f_equal; [destruct full_dg; cbn [map]; [rewrite lsum_one; apply All|reflexivity]|].
      rewrite lsum_flat, IntegProofs.lsum_seq0. set (Lb := List.length (me_bdr (mesh_of g (type_of g m)))).
      rewrite (rsum_ext _ _ (fun gi => rsum Lb (fun e => ind (gat g m (fst (nth e (me_bdr (mesh_of g (type_of g m))) (0%Z, false))) =? nth gi (g_gattr g) 0)%Z
        (place_term nm (AtSub m) BdrFace (NLax (condition types bdr gi)) v phi e)))).
      + rewrite rsum_swap. apply rsum_ext. intros e He.
        destruct (over_attrs g m G Hm (fun b => rsum (List.length (g_gattr g)) (fun gi => ind (nth b (row_of g m) 0 =? nth gi (g_gattr g) 0)%Z (place_term nm (AtSub m) BdrFace (NLax (condition types bdr gi)) v phi e))) e He)
          as (b & Hb & Eg & Eb). rewrite Eg. rewrite <- Eb. apply rsum_ext. intros b' Hb'. destruct (is_attr g (type_of g m) b' e); cbn [ind andb]; [reflexivity|].
        symmetry. apply rsum_zero.
      + intros gi Hg. unfold bc_integ. assert (Lb' : List.length (me_bdr (smesh g m)) = Lb) by (unfold smesh; cbn [me_bdr]; apply map_length).
        assert (Nb : forall e, e < Lb -> fst (nth e (me_bdr (smesh g m)) (0%Z, false)) = gat g m (fst (nth e (me_bdr (mesh_of g (type_of g m))) (0%Z, false)))).
        { intros e He. unfold smesh. cbn [me_bdr]. set (F := fun x : Z * bool => (gat g m (fst x), snd x)). rewrite (nth_indep _ _ (F (0%Z, false))) by (rewrite map_length; auto).
          rewrite map_nth. reflexivity. }
        destruct (attr_find (sub_attrs (smesh g m)) (nth gi (g_gattr g) 0%Z) 0) as [k|] eqn:Fd.
        * rewrite lsum_one. cbn [fst snd]. rewrite Lb'. apply rsum_ext. intros e He. rewrite (Nb e He).
          destruct (mark_at g G marks nmark Lm Um Vm m e gi Hm He Hg) as (Pa & Ma). rewrite (nth_error_nth _ _ 0%Z Ma).
          destruct (gat g m (fst (nth e (me_bdr (mesh_of g (type_of g m))) (0%Z, false))) =? nth gi (g_gattr g) 0)%Z; reflexivity.
        * change (lsum _ []) with 0%R. symmetry. rewrite (rsum_ext Lb _ (fun _ => 0%R)); [apply rsum_zero|]. intros e He.
          destruct (Z.eqb_spec (gat g m (fst (nth e (me_bdr (mesh_of g (type_of g m))) (0%Z, false)))) (nth gi (g_gattr g) 0%Z)) as [Q|]; [|reflexivity].
          exfalso. apply (BcProofs.find_out _ _ Fd). rewrite <- Q. apply smesh_attrs. eexists. split; [apply nth_In; exact He|reflexivity].
  Qed.
End Full.

Lemma ns_forms_ok g o full_dg types bdr : geo_ok g -> closed g types bdr ->
  exists marks n, ns_forms g o full_dg types bdr = Ok (map (smesh g) (seq 0 (nsub g)), marks, map (bc_form g o full_dg types bdr marks) (seq 0 (nsub g))) /\
    List.length marks = List.length (g_gattr g) /\ (forall m a, m < nsub g -> In a (sub_attrs (smesh g m)) -> (a <= Z.of_nat n)%Z) /\
    (forall b, b < List.length (g_gattr g) -> exists mk, nth_error marks b = Some mk /\ List.length mk = n /\
        forall a, (0 < a <= Z.of_nat n)%Z -> nth (Z.to_nat a - 1) mk 0%Z = if (a =? nth b (g_gattr g) 0)%Z then 1%Z else 0%Z).
Proof.
  intros G CL. destruct (markers_ok g G) as (marks & ts & n & E & L & U & V). exists marks, n. split; [|auto]. unfold ns_forms. rewrite (sub_meshes_ok g G). cbn [obind].
  fold (sattrs g). rewrite E. cbn [obind]. rewrite map_length, seq_length. rewrite (ns_bcs_ok g o full_dg types bdr CL marks L). reflexivity.
Qed.

Lemma nth_map_seq {A} (f : nat -> A) n k : k < n -> nth_error (map f (seq 0 n)) k = Some (f k).
Proof. intros H. rewrite nth_error_map. rewrite (nth_error_nth' (seq 0 n) 0) by (rewrite seq_length; auto). rewrite seq_nth by auto. reflexivity. Qed.

(** ** From the bases to the forms of the subdomains *)

Theorem reduced_ok nm g s cu cp dim o full_dg types bdr tr : geo_ok g -> stokes_bases s g cu cp dim -> List.length cu = ncomp g -> closed g types bdr ->
  (forall m, m < nsub g -> rules_fit nm g o full_dg types bdr cu tr m) ->
  exists meshes marks hs E0 E Fs, ns_forms g o full_dg types bdr = Ok (meshes, marks, hs) /\ alloc_eqps g o full_dg s cu = Ok E0 /\ train_eqps tr E0 = Ok E /\
    assemble_eqps g o full_dg s cu marks types bdr E = Ok Fs /\ List.length Fs = nsub g /\
    forall m, m < nsub g -> exists me F, nth_error meshes m = Some me /\ nth_error Fs m = Some F /\
      let B := basis_of s m 0 in
      ef_n F = dm_w B /\
      forall x, List.length x = dm_w B -> 0 < dm_w B ->
        (forall y, List.length y = dm_w B -> exists z, eform_mult nm (AtSub m) me F x y = Ok z /\ List.length z = dm_w B /\
           forall j, j < dm_w B -> vnth z j = over_parts g o full_dg types bdr tr m (fun t I l => rule_value nm (AtSub m) t I (lift B 0 x) (mode B 0 j) l)) /\
        exists J, eform_gradient nm (AtSub m) me F None x = Ok J /\ dm_h J = dm_w B /\ dm_w J = dm_w B /\
           forall a b, a < dm_w B -> b < dm_w B ->
             mget J a b = over_parts g o full_dg types bdr tr m (fun t I l => lsum (dpoint nm (AtSub m) t I (lift B 0 x) (mode B 0 a) (mode B 0 b)) l).
Proof.
  intros G SB Lu CL RF. destruct (ns_forms_ok g o full_dg types bdr G CL) as (marks & n & En & Lm & Um & Vm). destruct (alloc_ok g s cu cp dim G SB Lu o full_dg) as (E0 & Ea & La & Fr).
  assert (Tr : exists E, train_eqps tr E0 = Ok E /\ List.length E = ncomp g /\ forall c, c < ncomp g -> exists F F', nth_error E0 c = Some F /\ fresh_form g s cu o full_dg c F /\ nth_error E c = Some F' /\ train_form (tr c) F = Ok F').
  { unfold train_eqps. rewrite La.
    destruct (BupAsmProofs.omap_seq_Q (fun c => let* F := oread E0 c in train_form (tr c) F) (fun c F' => exists F, nth_error E0 c = Some F /\ fresh_form g s cu o full_dg c F /\ train_form (tr c) F = Ok F') (ncomp g)) as (E & EE & LE & V).
    - intros c Hc. destruct (Fr c Hc) as (F & EF & FF). unfold oread. rewrite EF. cbn [obind]. destruct (trained_ok g s cu o full_dg (tr c) c F FF) as (F' & E' & _). exists F'. split; [auto|]. exists F. auto.
    - exists E. split; [auto|]. split; [auto|]. intros c Hc. destruct (V c (EForm 0 [] [] [] None) Hc) as (F & H1 & H2 & H3). exists F, (nth c E (EForm 0 [] [] [] None)).
      split; [auto|]. split; [auto|]. split; [apply nth_error_nth'; lia|auto]. }
  destruct Tr as (E & Et & LE & TE).
  assert (As : exists Fs, assemble_eqps g o full_dg s cu marks types bdr E = Ok Fs /\ List.length Fs = nsub g /\
    forall m, m < nsub g -> exists b, set_basis (dm_w (vbasis s (type_of g m))) (fe_size (fth cu (type_of g m))) (vbasis s (type_of g m)) 0 = Ok b /\ nth_error Fs m = Some (sub_form g s o full_dg types bdr marks tr m b)).
  { unfold assemble_eqps. rewrite LE. destruct SB as (SB0 & Nv & Ty & Nc & Ns & Dm). rewrite Nc, Nat.eqb_refl. cbn [oassert].
    destruct (BupAsmProofs.omap_seq_Q (assemble_sub g o full_dg s cu marks types bdr E) (fun m F => exists b, set_basis (dm_w (vbasis s (type_of g m))) (fe_size (fth cu (type_of g m))) (vbasis s (type_of g m)) 0 = Ok b /\ F = sub_form g s o full_dg types bdr marks tr m b) (nsub g)) as (Fs & EF & LF & V).
    - intros m Hm. pose proof G as (_ & _ & _ & Tm & _). destruct (TE _ (Tm m Hm)) as (F & F' & H1 & H2 & H3 & H4).
      destruct (trained_ok g s cu o full_dg (tr (type_of g m)) (type_of g m) F H2) as (F'' & E'' & _ & Q1 & Q2 & Q3). assert (F'' = F') by congruence. subst F''.
      destruct (assemble_sub_ok g s cu cp dim G (conj SB0 (conj Nv (conj Ty (conj Nc (conj Ns Dm))))) Lu o full_dg types bdr CL marks Lm (tr (type_of g m)) E m F' Hm H3 Q1 Q2 Q3) as (b & Eb & ->).
      eexists. split; [reflexivity|]. exists b. auto.
    - exists Fs. split; [auto|]. split; [auto|]. intros m Hm. destruct (V m (EForm 0 [] [] [] None) Hm) as (b & Eb & EF'). exists b. split; [auto|]. rewrite <- EF'. apply nth_error_nth'. lia. }
  destruct As as (Fs & EF & LF & VF). do 3 eexists. exists E0, E, Fs. split; [exact En|]. split; [auto|]. split; [auto|]. split; [auto|]. split; [auto|].
  intros m Hm. destruct (VF m Hm) as (b & Eb & ->). exists (smesh g m). eexists. split; [apply nth_map_seq; auto|]. split; [reflexivity|]. cbn zeta.
  assert (EB : basis_of s m 0 = vbasis s (type_of g m)). { unfold basis_of, vbasis, comp_of. destruct SB as (_ & _ & Ty & _). rewrite Ty. reflexivity. }
  rewrite EB. split; [reflexivity|]. intros x Lx Hn. pose proof G as (_ & _ & _ & Tm & _). destruct (vbasis_ok g s cu cp dim SB Lu _ (Tm m Hm)) as (_ & W & _).
  pose proof (fun I => sub_fits g s cu G Lu nm o full_dg types bdr marks n Lm Um Vm tr m Hm (RF m Hm) b I) as Fit. split.
  - intros y Ly. destruct (form_mult_ok _ _ _ _ _ (integs nm (AtSub m) (smesh g m) (sub_form g s o full_dg types bdr marks tr m b)) x y W Eb Hn Lx Ly) as (z & Ez & Lz & Vz); [intros I HI; apply Fit; auto|].
    exists z. split; [exact Ez|]. split; [auto|]. intros j Hj. rewrite Vz by auto. eapply sub_sum; eauto.
  - destruct (form_gradient_ok _ _ _ _ _ (integs nm (AtSub m) (smesh g m) (sub_form g s o full_dg types bdr marks tr m b)) None x W Eb Hn Lx) as (J & EJ & _ & Hh & Hw & VJ); [discriminate|intros I HI; apply Fit; auto|].
    exists J. split; [exact EJ|]. split; [auto|]. split; [auto|]. intros i j Hi Hj. rewrite VJ by auto. eapply sub_sum; eauto.
Qed.

(** Rules that are exact for what they were trained on: by parts, then for the forms of the components. *)
Definition parts_exact (nm : nnum) (g : geometry) (o : oper) (full_dg : bool) (tr : nat -> itype -> nat -> list (sinfo R)) (c : nat) (v phi : nat -> R) : Prop :=
  rule_value nm (AtComp c) Domain (flow o) v phi (tr c Domain 0) = places_sum nm (AtComp c) Domain (flow o) v phi (fun _ => true) /\
  (o = OLax -> full_dg = true -> rule_value nm (AtComp c) InteriorFace (NLax None) v phi (tr c InteriorFace 0) = places_sum nm (AtComp c) InteriorFace (NLax None) v phi (fun _ => true)) /\
  (o = OLax -> forall b, b < List.length (attrs_of g c) ->
     rule_value nm (AtComp c) BdrFace (NLax None) v phi (tr c BdrFace (2 * b)) = places_sum nm (AtComp c) BdrFace (NLax None) v phi (is_attr g c b) /\
     rule_value nm (AtComp c) BdrFace (NLax (Some CZero)) v phi (tr c BdrFace (2 * b + 1)) = places_sum nm (AtComp c) BdrFace (NLax (Some CZero)) v phi (is_attr g c b)).

Lemma nth_pairs {A} (f h : nat -> A) n : forall a k, nth_error (flat_map (fun b => [f b; h b]) (seq a n)) k =
  if k <? 2 * n then Some (if Nat.even k then f (a + k / 2) else h (a + k / 2)) else None.
Proof.
  induction n as [|n IH]; intros a k; cbn [seq flat_map app]; [destruct k; reflexivity|]. destruct k as [|[|k]]; cbn [nth_error].
  - rewrite Nat.add_0_r. reflexivity.
  - destruct (Nat.ltb_spec 1 (2 * S n)); [|lia]. cbn [Nat.even Nat.div Nat.divmod fst]. rewrite Nat.add_0_r. reflexivity.
  - rewrite IH. replace (S (S k)) with (k + 1 * 2) by lia. rewrite Nat.div_add by lia. replace (S a + k / 2) with (a + (k / 2 + 1)) by lia.
    destruct (Nat.ltb_spec k (2 * n)), (Nat.ltb_spec (k + 1 * 2) (2 * S n)); try lia; [|reflexivity]. replace (k + 1 * 2) with (S (S k)) by lia. reflexivity.
Qed.

Lemma cmark_attr g c b e : geo_ok g -> c < ncomp g -> b < List.length (attrs_of g c) -> e < List.length (me_bdr (mesh_of g c)) ->
  negb (nth (Z.to_nat (fst (nth e (me_bdr (mesh_of g c)) (0%Z, false)) - 1)) (cmark g c b) 0 =? 0)%Z = is_attr g c b e.
Proof.
  intros (_ & _ & _ & _ & Gc & _) Hc Hb He. destruct (Gc c Hc) as (_ & Ne & Pos & Iff). destruct (MbMiscProofs.attr_max_ok (attrs_of g c) Ne) as (top & Et & _ & Mt).
  unfold is_attr, cmark. rewrite Et. set (a := fst (nth e (me_bdr (mesh_of g c)) (0%Z, false))).
  assert (Ia : In a (attrs_of g c)) by (apply Iff; unfold a; apply in_map, nth_In; auto). pose proof (Pos _ Ia). pose proof (Mt _ Ia). pose proof (nth_In _ 0%Z Hb) as Ib. pose proof (Pos _ Ib). pose proof (Mt _ Ib).
  set (a' := nth b (attrs_of g c) 0%Z) in *. destruct (Z.eqb_spec a a') as [->|N].
  - rewrite nth_upd_eq by (rewrite repeat_length; lia). reflexivity.
  - rewrite nth_upd_ne by lia. rewrite nth_repeat. reflexivity.
Qed.

Lemma exact_parts nm g s cu o full_dg c F tr v phi : geo_ok g -> c < ncomp g -> fresh_form g s cu o full_dg c F ->
  (forall I, List.length (nn_sites nm (AtComp c) BdrFace I) = List.length (me_bdr (mesh_of g c))) ->
  trained_exact nm g F tr c v phi <-> parts_exact nm g o full_dg tr c v phi.
Proof.
  intros G Hc (bs & _ & ->) PM. unfold trained_exact, parts_exact. cbn [ef_dom ef_int ef_bdr].
  assert (Sel : forall I b, b < List.length (attrs_of g c) -> places_sum nm (AtComp c) BdrFace I v phi (fun e => negb (nth (Z.to_nat (fst (nth e (me_bdr (mesh_of g c)) (0%Z, false)) - 1)) (cmark g c b) 0 =? 0)%Z) =
    places_sum nm (AtComp c) BdrFace I v phi (is_attr g c b)).
  { intros I b Hb. unfold places_sum. apply rsum_ext. intros e He. rewrite PM in He. rewrite cmark_attr by auto. reflexivity. }
  assert (Nth : forall k, nth_error (flat_map (fresh_bdr g c) (seq 0 (nbdr g o c))) k =
    if k <? 2 * nbdr g o c then Some (if Nat.even k then (NLax None, cmark g c (k / 2), None) else (NLax (Some CZero), cmark g c (k / 2), None)) else None).
  { intros k. exact (nth_pairs (fun b => (NLax None, cmark g c b, @None (list (sinfo R)))) (fun b => (NLax (Some CZero), cmark g c b, None)) (nbdr g o c) 0 k). }
  split.
  - intros (H1 & H2 & H3). split; [apply (H1 0 _ None eq_refl)|]. split.
    + intros -> ->. apply (H2 0 _ None eq_refl).
    + intros -> b Hb. split.
      * rewrite <- Sel by auto. apply (H3 (2 * b) _ _ None). rewrite Nth. cbn [nbdr]. rewrite (proj2 (Nat.ltb_lt _ _)) by lia. rewrite Nat.even_mul. cbn [Nat.even orb]. rewrite (Nat.mul_comm 2 b), Nat.div_mul by lia. reflexivity.
      * rewrite <- Sel by auto. apply (H3 (2 * b + 1) _ _ None). rewrite Nth. cbn [nbdr]. rewrite (proj2 (Nat.ltb_lt _ _)) by lia. rewrite Nat.even_add, Nat.even_mul. cbn [Nat.even orb Bool.eqb].
        replace ((2 * b + 1) / 2) with b by (apply Nat.div_unique with (r := 1); lia). reflexivity.
  - intros (H1 & H2 & H3). split; [|split].
    + intros [|k] I r Q; [injection Q as <- <-; exact H1|destruct k; discriminate].
    + intros k I r Q. unfold ints in Q. destruct o; [destruct k; discriminate|]. destruct full_dg; [|destruct k; discriminate]. destruct k as [|k]; [injection Q as <- <-; auto|destruct k; discriminate].
    + intros k I mk r Q. rewrite Nth in Q. destruct (Nat.ltb_spec k (2 * nbdr g o c)) as [L|]; [|discriminate]. unfold nbdr in L. destruct o; [lia|].
      assert (Hb : k / 2 < List.length (attrs_of g c)) by (apply Nat.div_lt_upper_bound; lia). destruct (H3 eq_refl _ Hb) as (Y1 & Y2). pose proof (Nat.div_mod_eq k 2) as D.
      destruct (Nat.even k) eqn:Ev; injection Q as <- <- <-; rewrite Sel by auto.
      * replace (2 * (k / 2)) with k in Y1; [exact Y1|]. apply Nat.even_spec in Ev as (q & ->). rewrite (Nat.mul_comm 2 q), Nat.div_mul by lia. lia.
      * replace (2 * (k / 2) + 1) with k in Y2; [exact Y2|]. rewrite <- Nat.negb_odd in Ev. apply Bool.negb_false_iff in Ev. apply Nat.odd_spec in Ev as (q & ->). replace ((2 * q + 1) / 2) with q by (apply Nat.div_unique with (r := 1); lia). lia.
Qed.

Lemma exact_sum nm g o full_dg types bdr tr m v phi : geo_ok g -> m < nsub g -> same_sites nm g -> places_match nm g -> open_or_wall g types bdr ->
  parts_exact nm g o full_dg tr (type_of g m) v phi ->
  over_parts g o full_dg types bdr tr m (fun t I l => rule_value nm (AtSub m) t I v phi l) = full_term nm g o full_dg types bdr m v phi.
Proof.
  intros G Hm SS PM OW (X1 & X2 & X3).
  assert (RV : forall t I l, rule_value nm (AtSub m) t I v phi l = rule_value nm (AtComp (type_of g m)) t I v phi l) by (intros; unfold rule_value, point; rewrite SS by auto; reflexivity).
  assert (PS : forall t I sel, places_sum nm (AtComp (type_of g m)) t I v phi sel = places_sum nm (AtSub m) t I v phi sel) by (intros t I sel; unfold places_sum, place_term; pose proof (SS m t I Hm) as Q; rewrite Q; reflexivity).
  unfold over_parts, full_term. cbn zeta. f_equal; [|destruct o eqn:Eo; [reflexivity|f_equal]].
  - rewrite RV, X1, PS. reflexivity.
  - destruct full_dg eqn:Ed; [|reflexivity]. rewrite RV, (X2 eq_refl eq_refl), PS. reflexivity.
  - set (Lb := List.length (me_bdr (mesh_of g (type_of g m)))).
    rewrite (rsum_ext (List.length (row_of g m)) _ (fun b => rsum Lb (fun e => rsum (List.length (g_gattr g)) (fun gi =>
       ind (is_attr g (type_of g m) b e && (nth b (row_of g m) 0 =? nth gi (g_gattr g) 0)%Z)%bool (place_term nm (AtSub m) BdrFace (NLax (condition types bdr gi)) v phi e))))).
    + apply rsum_swap.
    + intros b Hb. rewrite (rsum_swap Lb (List.length (g_gattr g))). apply rsum_ext. intros gi Hg. destruct (Z.eqb_spec (nth b (row_of g m) 0%Z) (nth gi (g_gattr g) 0%Z)) as [Q|Q].
      * cbn [ind]. rewrite RV. pose proof G as (_ & _ & _ & _ & _ & Gr & _). destruct (Gr m Hm) as (Lr & _). destruct (X3 eq_refl b) as (Y1 & Y2); [lia|].
        transitivity (places_sum nm (AtSub m) BdrFace (NLax (condition types bdr gi)) v phi (is_attr g (type_of g m) b)).
        -- rewrite <- PS. unfold condition, wall. destruct (OW gi Hg) as [Ty|(Ty & Tb)]; rewrite Ty; [rewrite Nat.add_0_r; exact Y1|rewrite Tb; exact Y2].
        -- unfold places_sum. rewrite (PM m _ Hm). apply rsum_ext. intros e He. rewrite andb_true_r. reflexivity.
      * cbn [ind]. symmetry. rewrite (rsum_ext Lb _ (fun _ => 0%R)); [apply rsum_zero|]. intros e He. rewrite andb_false_r. reflexivity.
Qed.
