(** Proofs about the parameters and the files of samples. *)
From Coq Require Import ZArith List Bool String Ascii Reals Lia Lra.
From Verif Require Import Outcome TagsSpec TagsProofs ConfigModel ConfigSpec ConfigProofs HdfProofs SamplingModel SamplingSpec
  SamplingProofs SparModel SparSpec.
Import ListNotations.
Open Scope Z_scope.

(** ** Setting options of a tree *)
Lemma set_node_again : forall p t v w t1, set_node t p v = Ok t1 -> set_node t1 p w = set_node t p w.
Proof.
  induction p as [|k p IH]; intros t v w t1 H; [reflexivity|]. cbn [set_node] in *.
  apply obind_ok in H as (m & Em & H). apply obind_ok in H as (c' & Ec & H). inversion H; subst. clear H.
  cbn [as_map obind]. rewrite assoc_set_eq, Em. cbn [obind]. rewrite (IH _ _ _ _ Ec).
  destruct (set_node _ p w) as [c2| |]; cbn [obind]; auto. do 2 f_equal.
  clear. induction m as [|[k' x] m IH]; simpl.
  - rewrite String.eqb_refl. reflexivity.
  - destruct (String.eqb_spec k' k); simpl.
    + subst. rewrite String.eqb_refl. reflexivity.
    + destruct (String.eqb_spec k' k); [contradiction|]. rewrite IH. reflexivity.
Qed.

Lemma assoc_set_comm m k k' c c1 x : k <> k' -> assoc m k = Some x ->
  assoc_set (assoc_set m k' c1) k c = assoc_set (assoc_set m k c) k' c1.
Proof.
  intros Hne. induction m as [|[k0 y] m IH]; simpl; [discriminate|].
  destruct (String.eqb_spec k0 k) as [->|H0]; intros E.
  - destruct (String.eqb_spec k k'); [contradiction|]. simpl. rewrite String.eqb_refl.
    destruct (String.eqb_spec k k'); [contradiction|]. reflexivity.
  - destruct (String.eqb_spec k0 k') as [->|H1]; simpl.
    + destruct (String.eqb_spec k' k); [congruence|]. rewrite String.eqb_refl. reflexivity.
    + destruct (String.eqb_spec k0 k); [contradiction|]. destruct (String.eqb_spec k0 k'); [contradiction|].
      rewrite IH; auto.
Qed.

Lemma present_set p t w : present t p -> exists t', set_node t p w = Ok t'.
Proof.
  intros [x H]. apply set_accepted. intros B. destruct (find_present _ _ _ H) as (t' & E).
  rewrite (find_below _ _ B) in E. discriminate.
Qed.

Lemma set_comm : forall p q t v w, present t p -> unrelated p q ->
  (let* t1 := set_node t q v in set_node t1 p w) = (let* t1 := set_node t p w in set_node t1 q v).
Proof.
  induction p as [|k p IH]; intros q t v w [x Hx] Hu.
  - exfalso. destruct Hu as [Hu _]. apply (Hu q). reflexivity.
  - destruct q as [|k' q]; [exfalso; destruct Hu as [_ Hu]; apply (Hu (k :: p)); reflexivity|].
    apply at_path_cons in Hx as (c & Hc & Hx). unfold child in Hc. cbn [set_node].
    destruct (as_map t) as [m| |] eqn:Em; try discriminate. cbn [obind]. rewrite Hc.
    destruct (string_dec k k') as [<-|Hne].
    + rewrite Hc. specialize (IH q c v w (ex_intro _ x Hx) (unrelated_cons _ _ _ Hu)).
      destruct (set_node c q v) as [cq| |] eqn:E1; cbn [obind] in *;
        destruct (set_node c p w) as [cp| |] eqn:E2; cbn [obind as_map] in *;
        rewrite ?assoc_set_eq; cbn [obind]; rewrite ?IH; auto.
      * rewrite <- IH. destruct (set_node cq p w) as [c3| |]; cbn [obind]; auto. do 2 f_equal.
        assert (A : forall m y z, assoc_set (assoc_set m k y) k z = assoc_set m k z).
        { clear. intros m y z. induction m as [|[k' x] m IH]; simpl.
          - rewrite String.eqb_refl. reflexivity.
          - destruct (String.eqb_spec k' k); simpl.
            + subst. rewrite String.eqb_refl. reflexivity.
            + destruct (String.eqb_spec k' k); [contradiction|]. rewrite IH. reflexivity. }
        rewrite !A. reflexivity.
      * rewrite <- IH. reflexivity.
      * rewrite <- IH. reflexivity.
    + destruct (present_set p c w (ex_intro _ x Hx)) as [cp E2]. rewrite E2. cbn [obind as_map].
      rewrite assoc_set_ne by auto.
      set (c0 := match assoc m k' with Some c => c | None => Null end).
      destruct (set_node c0 q v) as [cq| |]; cbn [obind as_map]; auto.
      rewrite assoc_set_ne by auto. rewrite Hc, E2. cbn [obind]. do 2 f_equal.
      eapply assoc_set_comm; eauto.
Qed.

(** present is kept *)
Lemma set_keeps p q t v t' : set_node t q v = Ok t' -> unrelated q p -> present t p -> present t' p.
Proof.
  intros H Hu [x Hx]. pose proof (set_frame q p t v t' H Hu) as F.
  destruct (find_present _ _ _ Hx) as (t1 & E). rewrite E in F. cbn [found obind] in F.
  destruct (find_cases p t') as [(y & t2 & E2 & Hy)|[(t2 & E2 & _)|(E2 & _)]]; rewrite E2 in F; cbn [found obind] in F; try discriminate.
  exists y; auto.
Qed.

Fixpoint set_list (kvs : list (list string * tree)) (t : tree) : outcome tree :=
  match kvs with
  | [] => Ok t
  | (k, v) :: l => let* t := set_node t k v in set_list l t
  end.

Lemma unrelated_sym p q : unrelated p q -> unrelated q p.
Proof. intros [A B]; split; auto. Qed.

Lemma set_list_comm : forall l p t w, present t p -> Forall (fun kv => unrelated p (fst kv)) l ->
  (let* t1 := set_list l t in set_node t1 p w) = (let* t1 := set_node t p w in set_list l t1).
Proof.
  induction l as [|[k v] l IH]; intros p t w Hp HF; cbn [set_list].
  - cbn [obind]. destruct (set_node t p w); reflexivity.
  - inversion HF as [|? ? Hu HF']; subst. cbn [fst] in Hu.
    pose proof (set_comm p k t v w Hp Hu) as C.
    destruct (present_set p t w Hp) as [tp Ep]. rewrite Ep in C |- *. cbn [obind] in C |- *.
    destruct (set_node t k v) as [t1| |] eqn:E1; cbn [obind] in C |- *.
    + rewrite (IH p t1 w (set_keeps _ _ _ _ _ E1 (unrelated_sym _ _ Hu) Hp) HF'). rewrite C. reflexivity.
    + rewrite <- C. reflexivity.
    + rewrite <- C. reflexivity.
Qed.

Definition separated (paths : list (list string)) : Prop :=
  forall a b p q, nth_error paths a = Some p -> nth_error paths b = Some q -> a <> b -> unrelated p q.

Lemma separated_tail p ps : separated (p :: ps) -> separated ps.
Proof. intros H a b x y Ha Hb Hn. apply (H (S a) (S b)); auto. Qed.
Lemma separated_head p ps : separated (p :: ps) -> Forall (unrelated p) ps.
Proof. intros H. apply Forall_forall. intros q Hq. apply In_nth_error in Hq as [b Hb]. apply (H 0%nat (S b)); auto. Qed.

Lemma Forall_combine {A B} (P : A -> Prop) (l : list A) (m : list B) :
  Forall P l -> Forall (fun x => P (fst x)) (combine l m).
Proof.
  revert m; induction l as [|a l IH]; intros [|b m] H; simpl; constructor; inversion H; subst; auto.
Qed.

Lemma set_list_again : forall paths vs ws t t1, separated paths -> List.length vs = List.length paths ->
  List.length ws = List.length paths ->
  set_list (combine paths vs) t = Ok t1 -> set_list (combine paths ws) t1 = set_list (combine paths ws) t.
Proof.
  induction paths as [|p paths IH]; intros vs ws t t1 HS Lv Lw H.
  - destruct vs, ws; try discriminate. cbn in *. inversion H; reflexivity.
  - destruct vs as [|v vs], ws as [|w ws]; try discriminate. cbn [combine set_list] in *.
    apply obind_ok in H as (t0 & E0 & H).
    assert (Hp : present t0 p) by (exists v; eapply set_then_find; eauto).
    assert (HF : Forall (fun kv : list string * tree => unrelated p (fst kv)) (combine paths vs))
      by (apply Forall_combine, separated_head; auto).
    pose proof (set_list_comm _ p t0 w Hp HF) as C. rewrite H in C. cbn [obind] in C.
    rewrite (set_node_again _ _ _ w _ E0) in C.
    destruct (set_node t1 p w) as [t2| |] eqn:E2.
    + cbn [obind]. destruct (set_node t p w) as [t3| |] eqn:E3; cbn [obind] in C |- *; try discriminate.
      symmetry in C. apply (IH vs ws t3 t2); auto. eapply separated_tail; eauto.
    + cbn [obind]. destruct (set_node t p w) as [t3| |] eqn:E3; cbn [obind] in C |- *; auto; try discriminate.
      exfalso. destruct (present_set p t1 w) as [? E]; [|congruence].
      clear -H Hp HF. revert t0 H Hp HF. induction (combine paths vs) as [|[k x] l IHl]; intros t0 H Hp HF; cbn [set_list] in H.
      * inversion H; subst; auto.
      * apply obind_ok in H as (t4 & E4 & H). inversion HF; subst. apply (IHl t4 H); auto.
        eapply set_keeps; eauto. apply unrelated_sym; auto.
    + cbn [obind]. destruct (set_node t p w) as [t3| |] eqn:E3; cbn [obind] in C |- *; auto; try discriminate.
      exfalso. destruct (present_set p t1 w) as [? E]; [|congruence].
      clear -H Hp HF. revert t0 H Hp HF. induction (combine paths vs) as [|[k x] l IHl]; intros t0 H Hp HF; cbn [set_list] in H.
      * inversion H; subst; auto.
      * apply obind_ok in H as (t4 & E4 & H). inversion HF; subst. apply (IHl t4 H); auto.
        eapply set_keeps; eauto. apply unrelated_sym; auto.
Qed.

Lemma set_list_frame : forall l q t t', set_list l t = Ok t' -> Forall (fun kv => unrelated (fst kv) q) l ->
  found (find_node t' q) = found (find_node t q).
Proof.
  induction l as [|[k v] l IH]; intros q t t' H HF; cbn [set_list] in H.
  - inversion H; auto.
  - apply obind_ok in H as (t1 & E & H). inversion HF; subst. rewrite (IH q t1 t' H) by auto.
    eapply set_frame; eauto.
Qed.

Lemma at_found t p v : at_path t p v <-> found (find_node t p) = Ok (Some v).
Proof.
  split.
  - intros H. destruct (find_present _ _ _ H) as (t' & ->). reflexivity.
  - destruct (find_cases p t) as [(y & t2 & E2 & Hy)|[(t2 & E2 & _)|(E2 & _)]]; rewrite E2; cbn [found obind]; intros H; inversion H; subst; auto.
Qed.

Lemma set_list_values : forall paths vs t t', separated paths -> set_list (combine paths vs) t = Ok t' ->
  forall k p v, nth_error paths k = Some p -> nth_error vs k = Some v -> at_path t' p v.
Proof.
  induction paths as [|p0 paths IH]; intros vs t t' HS H k p v Hp Hv; [destruct k; discriminate|].
  destruct vs as [|v0 vs]; [destruct k; discriminate|]. cbn [combine set_list] in H.
  apply obind_ok in H as (t1 & E & H). destruct k as [|k]; cbn in Hp, Hv.
  - inversion Hp; inversion Hv; subst. apply at_found. rewrite (set_list_frame _ p t1 t' H).
    + apply at_found. eapply set_then_find; eauto.
    + apply (Forall_combine (fun x => unrelated x p)). eapply Forall_impl; [|apply separated_head; eauto]. intros q. apply unrelated_sym.
  - eapply IH; eauto. eapply separated_tail; eauto.
Qed.

(** ** The parameters of a sample *)
Section P.
  Context (ed : R -> string) (ei : Z -> string) (fmt : string -> Z -> string).

  Fixpoint param_nodes (params : list param) (sizes idx : list Z) : outcome (list tree) :=
    match params, sizes, idx with
    | [], _, _ => Ok []
    | p :: ps, n :: ns, i :: is =>
        let* v := param_node ed ei fmt p n i in let* vs := param_nodes ps ns is in Ok (v :: vs)
    | _, _, _ => UB
    end.

  Lemma param_nodes_length : forall ps ns is vs, param_nodes ps ns is = Ok vs -> List.length vs = List.length ps.
  Proof.
    induction ps as [|p ps IH]; intros [|n ns] [|i is] vs H; cbn [param_nodes] in H; try discriminate;
      try (inversion H; reflexivity).
    apply obind_ok in H as (v & _ & H). apply obind_ok in H as (vs' & E & H). inversion H; subst.
    simpl. f_equal. eapply IH; eauto.
  Qed.

  Lemma set_params_list : forall ps paths ns is t t',
    Forall2 (fun p q => par_key p = join slash q /\ segments slash q) ps paths ->
    (set_params ed ei fmt ps ns is t = Ok t' <->
     exists vs, param_nodes ps ns is = Ok vs /\ set_list (combine paths vs) t = Ok t').
  Proof.
    intros ps paths ns is t t' HF. revert ns is t t'. induction HF as [|p q ps paths [Hk Hs] HF IH]; intros ns is t t'.
    - cbn. split; [intros H; exists []; cbn; auto|intros (vs & H & H'); inversion H; subst; exact H'].
    - destruct ns as [|n ns]; [split; [discriminate|intros (vs & H & _); discriminate]|].
      destruct is as [|i is]; [split; [discriminate|intros (vs & H & _); discriminate]|].
      cbn [set_params param_nodes]. destruct (param_node ed ei fmt p n i) as [v| |]; cbn [obind];
        try (split; [discriminate|intros (vs & H & _); discriminate]).
      unfold set_key. rewrite Hk, (pieces_join _ _ Hs). split.
      + intros H. apply obind_ok in H as (t1 & E & H). apply IH in H as (vs & Ev & H).
        exists (v :: vs). rewrite Ev. cbn [obind combine set_list]. rewrite E. cbn [obind]. auto.
      + intros (vs & Ev & H). apply obind_ok in Ev as (vs' & Ev & E1). inversion E1; subst vs.
        cbn [combine set_list] in H. apply obind_ok in H as (t1 & E & H). rewrite E. cbn [obind].
        apply IH. eauto.
  Qed.

  Lemma param_node_value p n i v : param_node ed ei fmt p n i = Ok v ->
    exists s, v = Scalar s /\ point_value ed ei fmt n i p s.
  Proof.
    destruct p as [k [|] lo hi|k lo hi|k f lo hi]; cbn [param_node]; intros H;
      apply obind_ok in H as (x & Hx & H); inversion H; subst; clear H; eexists; split; eauto.
    - unfold double_param_log in Hx. apply oassert_ok in Hx as [Hn Hx]. apply oassert_ok in Hx as [Hi Hx].
      apply andb_prop in Hi as [Hi1 Hi2]. apply Z.ltb_lt in Hn, Hi2. apply Z.leb_le in Hi1. inversion Hx; subst x.
      constructor; [lia|]. intros Hlo Hhi.
      generalize dependent Hx. intros _.
      set (N := if n =? 1 then 1 else n - 1).
      assert (E : (exp (ln (hi / lo) / IZR N) ^ Z.to_nat i = exp (IZR i * (ln (hi / lo) / IZR N)))%R).
      { rewrite <- Rpower_pow by apply exp_pos. unfold Rpower. rewrite ln_exp. do 2 f_equal.
        rewrite INR_IZR_INZ, Z2Nat.id by lia. reflexivity. }
      rewrite E. split; [apply Rmult_lt_0_compat; auto; apply exp_pos|].
      rewrite ln_mult by (auto; apply exp_pos). rewrite ln_exp.
      assert (D : ln (hi / lo) = (ln hi - ln lo)%R).
      { unfold Rdiv. rewrite ln_mult, ln_Rinv; auto. apply Rinv_0_lt_compat; auto. }
      rewrite D. subst N. destruct (Z.eqb_spec n 1).
      + replace i with 0 by lia. lra.
      + field. apply not_0_IZR. lia.
    - unfold double_param_linear in Hx. apply oassert_ok in Hx as [Hn Hx]. apply oassert_ok in Hx as [Hi Hx].
      apply andb_prop in Hi as [Hi1 Hi2]. apply Z.ltb_lt in Hn, Hi2. apply Z.leb_le in Hi1. inversion Hx; subst x.
      constructor; [lia|]. destruct (Z.eqb_spec n 1).
      + replace i with 0 by lia. lra.
      + field. apply not_0_IZR. lia.
    - unfold get_integer in Hx. apply oassert_ok in Hx as [Hn Hx]. apply oassert_ok in Hx as [Hi Hx].
      apply andb_prop in Hi as [Hi1 Hi2]. apply Z.ltb_lt in Hn, Hi2. apply Z.leb_le in Hi1. inversion Hx; subst x.
      apply pv_integer; [lia|]. destruct (Z.eqb_spec n 1); auto.
    - unfold get_integer in Hx. apply oassert_ok in Hx as [Hn Hx]. apply oassert_ok in Hx as [Hi Hx].
      apply andb_prop in Hi as [Hi1 Hi2]. apply Z.ltb_lt in Hn, Hi2. apply Z.leb_le in Hi1. inversion Hx; subst x.
      apply pv_filename; [lia|]. destruct (Z.eqb_spec n 1); auto.
  Qed.

  Lemma param_nodes_nth : forall ps ns is vs, param_nodes ps ns is = Ok vs -> forall k p n i,
    nth_error ps k = Some p -> nth_error ns k = Some n -> nth_error is k = Some i ->
    exists v, nth_error vs k = Some v /\ param_node ed ei fmt p n i = Ok v.
  Proof.
    induction ps as [|p0 ps IH]; intros [|n0 ns] [|i0 is] vs H [|k] p n i Hp Hn Hi; cbn in Hp, Hn, Hi; try discriminate;
      cbn [param_nodes] in H; apply obind_ok in H as (v & Ev & H); apply obind_ok in H as (vs' & E & H); inversion H; subst.
    - inversion Hp; inversion Hn; inversion Hi; subst. exists v; auto.
    - cbn. eapply IH; eauto.
  Qed.

  Lemma param_nodes_defined : forall ps ns is, List.length ps = List.length ns -> in_grid ns is ->
    exists vs, param_nodes ps ns is = Ok vs.
  Proof.
    intros ps ns is L HG. revert ps L. induction HG as [|n i ns is Hi HG IH]; intros ps L.
    - destruct ps; [|discriminate]. exists []; reflexivity.
    - destruct ps as [|p ps]; [discriminate|]. cbn [param_nodes]. destruct (IH ps ltac:(simpl in L; lia)) as [vs ->].
      assert (E : exists v, param_node ed ei fmt p n i = Ok v).
      { destruct p as [k [|] lo hi|k lo hi|k f lo hi]; cbn [param_node];
          unfold double_param_log, double_param_linear, get_integer, oassert;
          replace (0 <? n) with true by (symmetry; apply Z.ltb_lt; lia);
          replace ((0 <=? i) && (i <? n)) with true by (symmetry; apply andb_true_intro; split; [apply Z.leb_le|apply Z.ltb_lt]; lia);
          cbn [obind]; eauto. }
      destruct E as [v ->]. cbn [obind]. eauto.
  Qed.

  Lemma decode_grid_length sizes total k idx : set_param_space_sizes sizes = Ok total -> 0 <= k < total ->
    decode_index sizes k = Ok idx -> in_grid sizes idx.
  Proof.
    intros H Hk E. destruct (index_codec sizes total H) as (_ & C & _). destruct (C k Hk) as (idx' & E' & G & _).
    rewrite E in E'. inversion E'; subst. auto.
  Qed.

  Lemma set_list_accepted : forall paths vs t, separated paths -> List.length vs = List.length paths ->
    ((exists t', set_list (combine paths vs) t = Ok t') <-> forall q, In q paths -> ~ below_scalar t q).
  Proof.
    induction paths as [|p paths IH]; intros vs t HS L.
    - split; [intros _ q []|intros _]. exists t. reflexivity.
    - destruct vs as [|v vs]; [discriminate|]. cbn [combine set_list].
      assert (F : forall t1 q, set_node t p v = Ok t1 -> In q paths -> (below_scalar t1 q <-> below_scalar t q)).
      { intros t1 q E Hq. assert (Hu : unrelated p q).
        { pose proof (separated_head _ _ HS) as HF. rewrite Forall_forall in HF. auto. }
        pose proof (set_frame _ _ _ _ _ E Hu) as FR.
        assert (X : forall t, below_scalar t q <-> found (find_node t q) = Abort).
        { intros t0. split; [intros B; rewrite (find_below _ _ B); reflexivity|].
          destruct (find_cases q t0) as [(y & t2 & E2 & Hy)|[(t2 & E2 & _)|(E2 & B)]]; rewrite E2; cbn [found obind]; auto; discriminate. }
        rewrite !X, FR. reflexivity. }
      split.
      + intros [t' H]. apply obind_ok in H as (t1 & E & H). intros q [<-|Hq].
        * apply (proj1 (set_accepted p t v)). eauto.
        * rewrite <- (F t1 q E Hq). apply (proj1 (IH vs t1 (separated_tail _ _ HS) ltac:(simpl in L; lia))); eauto.
      + intros H. destruct (proj2 (set_accepted p t v) (H p (or_introl eq_refl))) as [t1 E]. rewrite E. cbn [obind].
        apply IH; [eapply separated_tail; eauto|simpl in L; lia|]. intros q Hq. rewrite (F t1 q E Hq). apply H. right; auto.
  Qed.

  Lemma sample_params params paths sizes total s t : set_param_space_sizes sizes = Ok total -> separate_keys params paths ->
    List.length params = List.length sizes -> 0 <= s < total ->
    exists idx, in_grid sizes idx /\ grid_position sizes idx = s /\
    ((exists t', set_sample_params ed ei fmt params sizes s t = Ok t') <-> forall q, In q paths -> ~ below_scalar t q) /\
    forall t', set_sample_params ed ei fmt params sizes s t = Ok t' ->
      (forall k p q n i, nth_error params k = Some p -> nth_error paths k = Some q -> nth_error sizes k = Some n ->
         nth_error idx k = Some i -> exists x, at_path t' q (Scalar x) /\ point_value ed ei fmt n i p x) /\
      (forall q, (forall p, In p paths -> unrelated p q) -> found (find_node t' q) = found (find_node t q)).
  Proof.
    intros HT [HK HS] HL Hs. destruct (index_codec sizes total HT) as (_ & C & C2). destruct (C s Hs) as (idx & E & G & E2).
    exists idx. split; auto. split.
    { destruct (C2 idx G) as (k & E3 & Ek & _). rewrite E2 in E3. inversion E3; subst; auto. }
    unfold set_sample_params. rewrite HL, Nat.eqb_refl, E. cbn [oassert obind].
    destruct (param_nodes_defined params sizes idx HL G) as [vs Ev].
    pose proof (param_nodes_length _ _ _ _ Ev) as Lv.
    assert (Lp : List.length params = List.length paths) by (clear -HK; induction HK; simpl; congruence).
    split.
    - rewrite <- (set_list_accepted paths vs t HS ltac:(congruence)). split; intros [t' H].
      + apply (set_params_list params paths _ _ _ _ HK) in H as (vs' & Ev' & H). rewrite Ev in Ev'. inversion Ev'; subst. eauto.
      + exists t'. apply (set_params_list params paths _ _ _ _ HK). eauto.
    - intros t' H. apply (set_params_list params paths _ _ _ _ HK) in H as (vs' & Ev' & H).
      rewrite Ev in Ev'. inversion Ev'; subst vs'. split.
      + intros k p q n i Hp Hq Hn Hi. destruct (param_nodes_nth _ _ _ _ Ev k p n i Hp Hn Hi) as (v & Hv & En).
        destruct (param_node_value _ _ _ _ En) as (x & -> & Hx). exists x. split; auto.
        eapply set_list_values; eauto.
      + intros q Hq. apply (set_list_frame _ q t t' H). apply (Forall_combine (fun x => unrelated x q)).
        apply Forall_forall. auto.
  Qed.

  Lemma sample_history params paths sizes : separate_keys params paths -> forall l t t1,
    runs_of (set_sample_params ed ei fmt params sizes) l t t1 -> forall s t2,
    set_sample_params ed ei fmt params sizes s t1 = Ok t2 <-> set_sample_params ed ei fmt params sizes s t = Ok t2.
  Proof.
    intros [HK HS]. assert (Lp : List.length params = List.length paths) by (clear -HK; induction HK; simpl; congruence).
    assert (STEP : forall s t t', set_sample_params ed ei fmt params sizes s t = Ok t' <->
      List.length params = List.length sizes /\ exists idx vs, decode_index sizes s = Ok idx /\
      param_nodes params sizes idx = Ok vs /\ set_list (combine paths vs) t = Ok t').
    { intros s t t'. unfold set_sample_params. rewrite oassert_ok, Nat.eqb_eq, obind_ok. split.
      - intros (HL & idx & E & H). apply (set_params_list params paths _ _ _ _ HK) in H as (vs & Ev & H). split; eauto.
      - intros (HL & idx & vs & E & Ev & H). split; auto. exists idx. split; auto.
        apply (set_params_list params paths _ _ _ _ HK). eauto. }
    induction 1 as [t|l s0 t t1 t1' H IH E]; intros s t2; [reflexivity|].
    rewrite <- (IH s t2), !STEP. apply STEP in E as (HL & idx0 & vs0 & E0 & Ev0 & E).
    split; intros (_ & idx & vs & Ei & Ev & F); (split; [auto|exists idx, vs; split; [auto|split; auto]]).
    - rewrite <- (set_list_again paths vs0 vs t1 t1' HS); auto; rewrite <- Lp; eapply param_nodes_length; eauto.
    - rewrite (set_list_again paths vs0 vs t1 t1' HS); auto; rewrite <- Lp; eapply param_nodes_length; eauto.
  Qed.

  Lemma random_list : forall ps paths ds t, Forall2 (fun p q => par_key p = join slash q /\ segments slash q) ps paths ->
    List.length ds = List.length ps ->
    set_random_params ed ei fmt ps ds t = set_list (combine paths (map (fun x => random_node ed ei fmt (fst x) (snd x)) (combine ps ds))) t.
  Proof.
    intros ps paths ds t HF. revert ds t. induction HF as [|p q ps paths [Hk Hs] HF IH]; intros [|d ds] t L; try discriminate; auto.
    cbn [set_random_params combine map set_list fst snd]. unfold set_key. rewrite Hk, (pieces_join _ _ Hs).
    destruct (set_node t q _); cbn [obind]; auto.
  Qed.

  Lemma random_drawn p d : exists x, random_node ed ei fmt p d = Scalar x /\ drawn_value ed ei fmt (dr_real d) (dr_int d) p x.
  Proof.
    destruct p as [k [] lo hi|k lo hi|k f lo hi]; cbn [random_node]; eexists; (split; [reflexivity|]); constructor.
    - intros Hl Hh. unfold double_random_log, Rpower. split; [apply Rmult_lt_0_compat; [exact Hl|apply exp_pos]|].
      rewrite ln_mult by (auto using exp_pos). rewrite ln_exp. unfold Rdiv. rewrite ln_mult by (auto using Rinv_0_lt_compat).
      rewrite ln_Rinv by exact Hl. ring.
    - unfold double_random_linear. ring.
  Qed.

  Lemma random_params params paths draws t t' : separate_keys params paths -> List.length draws = List.length params ->
    set_random_params ed ei fmt params draws t = Ok t' ->
    (forall k p q d, nth_error params k = Some p -> nth_error paths k = Some q -> nth_error draws k = Some d ->
       exists x, at_path t' q (Scalar x) /\ drawn_value ed ei fmt (dr_real d) (dr_int d) p x) /\
    (forall q, (forall p, In p paths -> unrelated p q) -> found (find_node t' q) = found (find_node t q)) /\
    forall draws2, List.length draws2 = List.length params ->
      set_random_params ed ei fmt params draws2 t' = set_random_params ed ei fmt params draws2 t.
  Proof.
    intros [HK HS] L H. assert (Lp : List.length params = List.length paths) by (clear -HK; induction HK; simpl; congruence).
    rewrite (random_list _ _ _ _ HK L) in H. split; [|split].
    - intros k p q d Hp Hq Hd. destruct (random_drawn p d) as (x & Ex & Vx). exists x. split; [rewrite <- Ex|exact Vx].
      eapply set_list_values; eauto. rewrite nth_error_map.
      assert (E : nth_error (combine params draws) k = Some (p, d)).
      { clear -Hp Hd. revert draws k Hp Hd. induction params as [|a l IH]; intros [|b m] [|k] Hp Hd; cbn in *; try discriminate; auto.
        congruence. }
      rewrite E. reflexivity.
    - intros q Hq. apply (set_list_frame _ q t t' H). apply (Forall_combine (fun x => unrelated x q)). apply Forall_forall. auto.
    - intros draws2 L2. rewrite !(random_list _ _ _ _ HK L2).
      eapply set_list_again; eauto; rewrite map_length, combine_length; lia.
  Qed.
End P.

(** ** Files *)
Lemma int_text_no_underscore z : no_char "_" (int_text z).
Proof. unfold int_text. destruct (z <? 0); [split; [discriminate|]|]; apply index_key_no_underscore. Qed.

Lemma digits_no_minus u : no_char "-" (DecimalString.NilEmpty.string_of_uint u).
Proof. induction u; simpl; auto; split; auto; discriminate. Qed.

Lemma int_text_inj a b : int_text a = int_text b -> a = b.
Proof.
  unfold int_text. destruct (Z.ltb_spec a 0), (Z.ltb_spec b 0); intros E.
  - injection E as E. apply index_key_inj in E. lia.
  - exfalso. pose proof (digits_no_minus (Nat.to_uint (Z.to_nat b))) as D. unfold index_key in E. rewrite <- E in D.
    destruct D as [D _]. auto.
  - exfalso. pose proof (digits_no_minus (Nat.to_uint (Z.to_nat a))) as D. unfold index_key in E. rewrite E in D.
    destruct D as [D _]. auto.
  - apply index_key_inj in E. lia.
Qed.

Lemma append_inv_head (a b c : string) : (a ++ b = a ++ c)%string -> b = c.
Proof. induction a; simpl; intros H; [auto|]. injection H; auto. Qed.

Lemma append_assoc_s (a b c : string) : ((a ++ b) ++ c = a ++ (b ++ c))%string.
Proof. induction a; simpl; congruence. Qed.

Lemma solution_file_inj dir pre i1 p1 i2 p2 : solution_file dir pre i1 p1 = solution_file dir pre i2 p2 -> i1 = i2.
Proof.
  unfold solution_file, get_sample_path. rewrite !append_assoc_s. intros H. apply append_inv_head in H.
  apply (append_inv_head "/sample") in H.
  apply app_underscore_inj in H as [E _]; try apply int_text_no_underscore. apply int_text_inj; auto.
Qed.

Lemma sample_path_inj dir pre i1 p1 i2 p2 : get_sample_path dir pre i1 p1 = get_sample_path dir pre i2 p2 ->
  i1 = i2 /\ (p1 = "" /\ (p2 = "" \/ p2 = pre) \/ p2 = "" /\ p1 = pre \/ p1 = p2)%string.
Proof.
  unfold get_sample_path. intros H. apply append_inv_head in H. apply (append_inv_head "/sample") in H.
  apply app_underscore_inj in H as [E1 E2]; try apply int_text_no_underscore. split; [apply int_text_inj; auto|].
  destruct (String.eqb_spec p1 ""), (String.eqb_spec p2 ""); subst; auto.
Qed.

Lemma files_of_run (C : Type) total gt off setp converge (cfg cfg' : C) fuel solved dir pre sp : 0 <= total ->
  generate_samples fuel total 1 0 gt off setp converge cfg = Finished solved cfg' ->
  let files := map (fun x : Z * Z => solution_file dir pre (snd x) (sp (fst x))) solved in
  List.length files = Z.to_nat total /\ NoDup files.
Proof.
  intros Ht H files.
  assert (E : solved = all_samples (Z.to_nat total) off).
  { apply (proj1 (proj1 (generate_samples_single total gt off setp converge cfg Ht) fuel solved cfg' H)). }
  subst files solved. unfold all_samples. rewrite map_map. cbn [fst snd]. rewrite map_length, seq_length. split; auto.
  assert (G : forall n a, NoDup (map (fun k => solution_file dir pre (Z.of_nat k + off) (sp (Z.of_nat k))) (seq a n))).
  { induction n as [|n IH]; intros a; cbn [seq map]; constructor; auto.
    rewrite in_map_iff. intros (k & E & Hk). apply in_seq in Hk. apply solution_file_inj in E. lia. }
  apply G.
Qed.
