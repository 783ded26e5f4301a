(** The hyper-reduced interface terms at sampled states. *)
From Coq Require Import Reals List Bool Lia Arith ZArith Lra.
From Verif Require Import Outcome ListLemmas TagsModel TagsSpec SnapshotModel SnapshotSpec HdfModel LaBase BlockVec LinalgModel LinalgSpec LinalgProofs LinalgSubProofs ItfModel ItfSpec EqpModel EqpSpec EqpItfModel EqpItfSpec.
From Verif Require Import RomProofs MbFlowProofs EqpProofs EqpSetupProofs EqpEvalProofs EqpAccProofs EqpItfProofs ItrModel ItrSpec ItrProofs ItrRunProofs.
Import ListNotations.
Local Open Scope nat_scope.

Section Eval.
  Context (T : tnet) (dim : basis_tag -> nat) (tol : R) (h : list (event R)) (ct : list nat) (ports : list rport) (st : rules).
  Context (N : net_ok T dim) (PO : ports_ok T ct ports).
  Let nref := List.length (tn_refs T).
  Let nk := List.length (tn_rules T).
  Let np := List.length (tn_types T).
  Context (L2 : List.length (snd st) = nk * np).
  Context (G1 : forall k p, k < nk -> p < nref -> exists l, nth_error (fst st) (p + k * nref) = Some (Some l) /\ good T tol h k p l).
  Context (G2 : forall k q t, k < nk -> nth_error (tn_types T) q = Some t -> nth_error (snd st) (q + k * np) = nth_error (fst st) (t + k * nref)).
  Context (Wp : forall c B, In c ct -> nth_error (tn_bases T) c = Some (Some B) -> 0 < dm_w B).
  Context (Pl : forall k p t, k < nk -> p < nref -> In (Some t) (tn_sites T k p) -> iplain t).
  Let F := net_form T ct ports (snd st).

  Lemma type_at q : q < np -> exists t, nth_error (tn_types T) q = Some t /\ t < nref.
  Proof.
    intros Hq. destruct (nth_error (tn_types T) q) as [t|] eqn:E; [|apply nth_error_None in E; unfold np in Hq; lia]. exists t. split; [auto|]. apply (no_types _ _ N), (nth_error_In _ _ E).
  Qed.

  Lemma port_at q t : nth_error (tn_types T) q = Some t -> nth_error ports q = Some (iport F q) /\ nth_error ct (rp_m1 (iport F q)) = Some (side T t true) /\ nth_error ct (rp_m2 (iport F q)) = Some (side T t false).
  Proof.
    intros E. destruct PO as (_ & _ & H). destruct (H q t E) as (pt & E1 & E2 & E3). assert (Ei : iport F q = pt) by (unfold iport, F, net_form; cbn [fo_ports]; apply nth_error_nth; auto). rewrite Ei. auto.
  Qed.

  Lemma sub_basis i c : nth_error ct i = Some c -> bas F i = basis_at T c /\ voff F i = nth c (tn_offs T) 0.
  Proof.
    intros E. unfold bas, voff, F, net_form, basis_at. cbn [fo_bases fo_offs]. split.
    - rewrite (nth_error_nth (map (fun c => nth c (tn_bases T) None) ct) i None (x := nth c (tn_bases T) None)); [reflexivity|]. rewrite nth_error_map, E. reflexivity.
    - apply nth_error_nth. rewrite nth_error_map, E. reflexivity.
  Qed.

  Lemma smp_at k q t : k < nk -> nth_error (tn_types T) q = Some t -> exists l, ismp F k q = l /\ good T tol h k t l.
  Proof.
    intros Hk Et. destruct (type_at q ltac:(unfold np; apply nth_error_Some; congruence)) as (t' & Et' & Ht). assert (t' = t) by congruence. subst t'.
    destruct (G1 k t Hk Ht) as (l & El & Gl). rewrite <- (G2 k q t Hk Et) in El. exists l. split; [|exact Gl]. unfold ismp, F, net_form. cbn [fo_ports fo_smp]. rewrite (proj1 PO). fold np. rewrite (nth_error_nth _ _ None El). reflexivity.
  Qed.

  Lemma fits : form_fits F (fun i => nth (nth i ct 0) (tn_size T) 0).
  Proof.
    unfold form_fits. split; [unfold F, net_form; cbn [fo_offs fo_bases]; rewrite !map_length; auto|]. split.
    { intros i Hi. unfold F, net_form in Hi. cbn [fo_bases] in Hi. rewrite map_length in Hi. destruct (nth_error ct i) as [c|] eqn:E; [|apply nth_error_None in E; lia].
      assert (Ic : In c ct) by (eapply nth_error_In; eauto). pose proof (proj1 (proj2 PO) c Ic) as Hc. destruct (no_basis _ _ N c Hc) as (B & EB & WB & HB). exists B.
      split; [unfold F, net_form; cbn [fo_bases]; rewrite nth_error_map, E; cbn [option_map]; rewrite (nth_error_nth _ _ None EB); reflexivity|]. split; [auto|]. split; [eapply Wp; eauto|].
      rewrite (proj2 (sub_basis i c E)), (nth_error_nth _ _ 0 E). exact HB. }
    split; [unfold F, net_form; cbn [fo_smp fo_ports fo_rules]; rewrite map_length, (proj1 PO), L2; fold np nk; lia|]. split.
    { intros p Hp. unfold F, net_form in Hp. cbn [fo_ports] in Hp. rewrite (proj1 PO) in Hp. destruct (type_at p Hp) as (t & Et & _). destruct (port_at p t Et) as (_ & E2 & E3).
      unfold F, net_form in *. cbn [fo_bases] in *. rewrite map_length. split; apply nth_error_Some; congruence. }
    intros k Hk. unfold F, net_form in Hk. cbn [fo_rules] in Hk. rewrite map_length in Hk. destruct (nth_error (tn_rules T) k) as [o|] eqn:Ek; [|apply nth_error_None in Ek; lia].
    destruct (no_rules _ _ N o (nth_error_In _ _ Ek)) as (w & -> & Hw & _). exists (List.length w). split; [unfold F, net_form; cbn [fo_rules]; rewrite nth_error_map, Ek; reflexivity|].
    intros p Hp s Is. unfold F, net_form in Hp. cbn [fo_ports] in Hp. rewrite (proj1 PO) in Hp. destruct (type_at p Hp) as (t & Et & Ht). destruct (smp_at k p t Hk Et) as (l & El & Fl & _). rewrite El in Is.
    destruct (Fl s Is) as (B1 & B2 & _). assert (Ew : rule_of T k = w) by (unfold rule_of; rewrite (nth_error_nth _ _ None Ek); reflexivity). rewrite Ew in B2.
    destruct (port_at p t Et) as (_ & E2 & E3). rewrite (nth_error_nth _ _ 0 E2), (nth_error_nth _ _ 0 E3).
    assert (Es : fo_sites F k p = tn_sites T k t) by (unfold F, net_form; cbn [fo_sites]; rewrite Et; reflexivity). rewrite Es.
    split; [lia|]. split; [|lia]. assert (Hi : In (nth (Z.to_nat (si_el s)) (tn_sites T k t) None) (tn_sites T k t)) by (apply nth_In; lia).
    destruct (no_sites _ _ N k t _ Hk Ht Hi) as (u & Eu & O & _). exists u. split; [exact Eu|]. split; [exact O|]. apply (Pl k t u Hk Ht). rewrite <- Eu. exact Hi.
  Qed.

  Theorem eval_ok x y : sampled_state T h F x -> List.length x = start F (List.length (fo_bases F)) -> List.length y = List.length x ->
    exists off z, block_offsets (fo_bases F) = Ok off /\ itf_add_mult F off x y = Ok z /\ List.length z = List.length y /\
      forall i j, i < List.length ct -> j < width F i ->
        (Rabs (vnth z (start F i + j) - (vnth y (start F i + j) + over_ports T F i j (port_full T F x))) <= over_ports T F i j (port_bound T tol F x))%R.
  Proof.
    intros SS Lx Ly. destruct (itf_add_mult_ok F (fun i => nth (nth i ct 0) (tn_size T) 0) x y fits Lx Ly) as (off & z & E1 & E2 & E3 & V). exists off, z. split; [auto|]. split; [auto|]. split; [auto|].
    intros i j Hi Hj. rewrite V; [|unfold F, net_form; cbn [fo_bases]; rewrite map_length; auto|auto].
    assert (Er : List.length (fo_rules F) = List.length (tn_rules T)) by (unfold F, net_form; cbn [fo_rules]; apply map_length). rewrite Er.
    match goal with |- (Rabs (?a + ?b - (?a + ?c)) <= _)%R => replace (a + b - (a + c))%R with (b - c)%R by ring end. unfold over_ports. rewrite <- rsum_minus. eapply Rle_trans; [apply rsum_abs_le|]. apply rsum_le. intros k Hk.
    rewrite <- rsum_minus. eapply Rle_trans; [apply rsum_abs_le|]. apply rsum_le. intros q Hq. assert (Hq' : q < np) by (unfold F, net_form in Hq; cbn [fo_ports] in Hq; rewrite (proj1 PO) in Hq; exact Hq).
    destruct (type_at q Hq') as (t & Et & Ht). destruct (smp_at k q t Hk Et) as (l & El & Fl & St). rewrite El.
    destruct (port_at q t Et) as (_ & M1 & M2). set (m1 := rp_m1 (iport F q)) in *. set (m2 := rp_m2 (iport F q)) in *.
    set (v1 := istate F x m1). set (v2 := istate F x m2). assert (Es : fo_sites F k q = tn_sites T k t) by (unfold F, net_form; cbn [fo_sites]; rewrite Et; reflexivity).
    destruct (SS q t Et) as (u1 & u2 & On & X1 & X2). fold m1 in X1. fold m2 in X2. fold v1 in X1. fold v2 in X2.
    assert (Each : forall first, i = (if first : bool then m1 else m2) ->
      (Rabs (smp_sum (tn_sites T k t) l v1 v2 first (imode F i j) - port_full T F x k q first (imode F i j)) <= port_bound T tol F x k q first (imode F i j))%R).
    { intros first Ei. unfold port_full, port_bound, port_full. fold m1 m2 v1 v2. rewrite Es.
      assert (Ec : nth_error ct i = Some (side T t first)) by (rewrite Ei; destruct first; auto). destruct (sub_basis i _ Ec) as (Eb & Eo).
      assert (Em : imode F i j = test_mode T t first j) by (unfold imode, test_mode; rewrite Eb, Eo; reflexivity). rewrite Em.
      apply (stands_ext T dim tol N k t l u1 u2 v1 v2 first (test_mode T t first j) Hk Ht); [intros; symmetry; auto|intros; symmetry; auto|]. apply St; auto. unfold width in Hj. rewrite Eb in Hj. exact Hj. }
    assert (Sm : lsum (isample_form F x k q i j) l = ((if i =? m1 then smp_sum (tn_sites T k t) l v1 v2 true (imode F i j) else 0) + (if i =? m2 then smp_sum (tn_sites T k t) l v1 v2 false (imode F i j) else 0))%R).
    { clear - Es. unfold smp_sum, isample_form. fold m1 m2. rewrite Es. unfold isite_of. induction l as [|a l IH]; [cbn; destruct (i =? m1), (i =? m2); ring|].
      unfold lsum in *. cbn [fold_right]. rewrite IH. unfold v1, v2. destruct (nth (Z.to_nat (si_el a)) (tn_sites T k t) None); destruct (i =? m1), (i =? m2); ring. }
    rewrite Sm. pose proof (Each true) as Q1. pose proof (Each false) as Q2. destruct (Nat.eqb_spec i m1) as [e1|e1], (Nat.eqb_spec i m2) as [e2|e2].
    - specialize (Q1 e1). specialize (Q2 e2). match goal with |- (Rabs (?a + ?b - (?c + ?d)) <= _)%R => replace (a + b - (c + d))%R with ((a - c) + (b - d))%R by ring end. eapply Rle_trans; [apply Rabs_triang|]. apply Rplus_le_compat; auto.
    - specialize (Q1 e1). rewrite !Rplus_0_r. exact Q1.
    - specialize (Q2 e2). rewrite !Rplus_0_l. exact Q2.
    - rewrite Rplus_0_l, Rminus_0_r, Rabs_R0. lra.
  Qed.
End Eval.
