From Coq Require Import ZArith List Bool String Lia Arith.
From Verif Require Import Outcome ProfilerModel ProfilerSpec.
Import ListNotations.
Open Scope list_scope.

Record inv (tr : list event) (p : profiler) : Prop := {
  v_lt : List.length (timers p) = List.length (names p);
  v_lc : List.length (calls p) = List.length (names p);
  v_ls : List.length (starts p) = List.length (names p);
  v_nd : NoDup (names p);
  v_ix : forall n i, index_of (indices p) n = Some i <-> nth_error (names p) i = Some n;
  v_in : forall n, In n (names p) <-> own n tr <> [];
  v_val : forall i n, nth_error (names p) i = Some n -> exists ivs op w,
    alternates n tr ivs op /\ nth_error (timers p) i = Some w /\ w_acc w = total ivs /\
    (match op with Some a => w_start w = a | None => True end) /\
    nth_error (calls p) i = Some (Z.of_nat (List.length ivs)) /\
    nth_error (starts p) i = Some (match op with Some _ => true | None => false end) }.

Lemma inv0 : inv [] profiler0.
Proof.
  constructor; simpl; auto.
  - constructor.
  - intros n [|i]; split; discriminate.
  - intros n; split; [intros []|intros H; apply H; reflexivity].
  - intros [|i] n H; discriminate.
Qed.

Lemma own_app n tr e : own n (tr ++ [e]) = own n tr ++ (if String.eqb (name_of e) n then [e] else []).
Proof. unfold own. rewrite filter_app. simpl. destruct (String.eqb (name_of e) n); reflexivity. Qed.

Lemma alternates_other n tr e ivs op : name_of e <> n -> alternates n tr ivs op -> alternates n (tr ++ [e]) ivs op.
Proof. unfold alternates. rewrite own_app. intros H <-. destruct (String.eqb_spec (name_of e) n); [contradiction|]. apply app_nil_r. Qed.

Lemma alternates_start n tr ivs a : alternates n tr ivs None -> alternates n (tr ++ [Start n a]) ivs (Some a).
Proof. unfold alternates. rewrite own_app. simpl. rewrite String.eqb_refl. intros ->. rewrite app_nil_r. reflexivity. Qed.

Lemma alternates_stop n tr ivs a b : alternates n tr ivs (Some a) -> alternates n (tr ++ [Stop n b]) (ivs ++ [(a, b)]) None.
Proof.
  unfold alternates. rewrite own_app. simpl. rewrite String.eqb_refl. intros ->.
  rewrite flat_map_app, app_nil_r, <- app_assoc. reflexivity.
Qed.

Lemma total_app ivs a b : total (ivs ++ [(a, b)]) = (total ivs + (b - a))%Z.
Proof. induction ivs as [|[x y] ivs IH]; simpl; [lia|]. unfold total in *. simpl. rewrite IH. lia. Qed.

(** both readings of a trace agree *)
Lemma flat_length n ivs : List.length (flat_map (fun iv : Z * Z => [Start n (fst iv); Stop n (snd iv)]) ivs) = 2 * List.length ivs.
Proof. induction ivs; simpl in *; lia. Qed.

Lemma alternates_fun n tr : forall ivs op ivs' op', alternates n tr ivs op -> alternates n tr ivs' op' -> ivs = ivs' /\ op = op'.
Proof.
  unfold alternates. generalize (own n tr) as l. intros l ivs. revert l.
  induction ivs as [|[a b] ivs IH]; intros l op [|[a' b'] ivs'] op' H H'; simpl in *; subst l.
  - destruct op, op'; inversion H'; auto.
  - destruct op; discriminate.
  - destruct op'; discriminate.
  - injection H' as E1 E2 E3. subst a' b'. destruct (IH _ op ivs' op' eq_refl E3) as [-> ->]. auto.
Qed.

Definition acceptable (tr : list event) (e : event) : Prop :=
  match e with
  | Start n _ => exists ivs, alternates n tr ivs None
  | Stop n _ => exists ivs a, alternates n tr ivs (Some a)
  end.

Lemma inv_alternates tr p n : inv tr p -> exists ivs op, alternates n tr ivs op.
Proof.
  intros H. destruct (in_dec string_dec n (names p)) as [Hin|Hn].
  - apply In_nth_error in Hin as [i Hi]. destruct (v_val _ _ H i n Hi) as (ivs & op & w & Ha & _). eauto.
  - exists [], None. unfold alternates. simpl. destruct (own n tr) eqn:E; auto. exfalso. apply Hn.
    apply (v_in _ _ H). congruence.
Qed.

Lemma register_inv tr p n : inv tr p -> index_of (indices p) n = None ->
  let p' := {| indices := (n, List.length (timers p)) :: indices p;
               timers := timers p ++ [{| w_acc := 0; w_start := 0 |}];
               names := names p ++ [n]; calls := calls p ++ [0%Z]; starts := starts p ++ [false] |} in
  ~ In n (names p) /\
  List.length (timers p') = List.length (names p') /\ List.length (calls p') = List.length (names p') /\
  List.length (starts p') = List.length (names p') /\ NoDup (names p') /\
  (forall m i, index_of (indices p') m = Some i <-> nth_error (names p') i = Some m) /\
  (forall i m, nth_error (names p') i = Some m -> exists ivs op w,
    alternates m tr ivs op /\ nth_error (timers p') i = Some w /\ w_acc w = total ivs /\
    (match op with Some a => w_start w = a | None => True end) /\
    nth_error (calls p') i = Some (Z.of_nat (List.length ivs)) /\
    nth_error (starts p') i = Some (match op with Some _ => true | None => false end)).
Proof.
  intros H Hn. destruct H as [Hlt Hlc Hls Hnd Hix Hin Hv].
  assert (Hni : ~ In n (names p)).
  { intros Hi. apply In_nth_error in Hi as [i Hi]. apply Hix in Hi. congruence. }
  cbv zeta. simpl. rewrite !app_length, Hlt, Hlc, Hls. simpl. split; auto. split; auto. split; auto. split; auto.
  split; [|split].
  - clear - Hnd Hni.
    induction (names p) as [|x l IH]; simpl; [constructor; auto; constructor|].
    inversion Hnd; subst. constructor.
    + rewrite in_app_iff. simpl. intros [Hx|[Hx|[]]]; [contradiction|]. subst. apply Hni; simpl; auto.
    + apply IH; auto. intros Hx; apply Hni; simpl; auto.
  - intros m i. destruct (String.eqb_spec n m) as [->|Hne].
    + destruct (Nat.lt_ge_cases i (List.length (names p))) as [Hi|Hi].
      * rewrite nth_error_app1 by auto. split; [intros E; inversion E; lia|]. intros E. exfalso. apply Hni. eapply nth_error_In; eauto.
      * rewrite nth_error_app2 by auto. destruct (i - List.length (names p)) as [|d] eqn:Ed; simpl.
        -- split; auto. intros _. f_equal. lia.
        -- split; [intros E; inversion E; lia|]. destruct d; discriminate.
    + rewrite Hix. destruct (Nat.lt_ge_cases i (List.length (names p))) as [Hi|Hi].
      * rewrite nth_error_app1 by auto. reflexivity.
      * rewrite nth_error_app2 by auto. split; intros E.
        -- assert (i < List.length (names p)) by (apply nth_error_Some; congruence). lia.
        -- destruct (i - List.length (names p)) as [|d]; simpl in E; [congruence|destruct d; discriminate].
  - intros i m Hi. destruct (Nat.lt_ge_cases i (List.length (names p))) as [Hlt'|Hge].
    + rewrite nth_error_app1 in Hi by auto. destruct (Hv i m Hi) as (ivs & op & w & H1 & H2 & H3 & H4 & H5 & H6).
      exists ivs, op, w. rewrite !nth_error_app1 by lia. repeat split; auto.
    + rewrite nth_error_app2 in Hi by auto. rewrite !nth_error_app2 by lia. rewrite Hlt, Hlc, Hls.
      destruct (i - List.length (names p)) as [|d]; simpl in *; [|destruct d; discriminate].
      inversion Hi; subst m. exists [], None, {| w_acc := 0; w_start := 0 |}. repeat split; auto.
      unfold alternates. simpl. destruct (own n tr) eqn:E; auto. exfalso. apply Hni. apply Hin. congruence.
Qed.

Lemma oread_some {A} (l : list A) i x : nth_error l i = Some x -> oread l i = Ok x.
Proof. intros H. unfold oread. rewrite H. reflexivity. Qed.
Lemma owrite_some {A} (l : list A) i x : (i < List.length l)%nat -> owrite l i x = Ok (upd l i x).
Proof. intros H. unfold owrite. destruct (Nat.ltb_spec i (List.length l)); [reflexivity|lia]. Qed.

Lemma NoDup_nth_inj {A} (l : list A) i j a : NoDup l -> nth_error l i = Some a -> nth_error l j = Some a -> i = j.
Proof.
  intros Hnd Hi Hj. apply (proj1 (NoDup_nth_error l) Hnd); [apply nth_error_Some; congruence|congruence].
Qed.

Lemma step_ok tr p e : inv tr p ->
  (acceptable tr e -> exists p', step p e = Ok p' /\ inv (tr ++ [e]) p') /\
  (~ acceptable tr e -> step p e = Abort).
Proof.
  intros H. destruct e as [n now|n now]; simpl.
  - (* start *)
    unfold start.
    assert (Hreg : exists p1, (match index_of (indices p) n with
           | Some _ => p
           | None => {| indices := (n, List.length (timers p)) :: indices p;
                        timers := timers p ++ [{| w_acc := 0; w_start := 0 |}];
                        names := names p ++ [n]; calls := calls p ++ [0%Z]; starts := starts p ++ [false] |}
           end) = p1 /\ List.length (timers p1) = List.length (names p1) /\ List.length (calls p1) = List.length (names p1) /\
      List.length (starts p1) = List.length (names p1) /\ NoDup (names p1) /\
      (forall m i, index_of (indices p1) m = Some i <-> nth_error (names p1) i = Some m) /\
      (forall m, In m (names p1) <-> In m (names p) \/ m = n) /\
      (forall i m, nth_error (names p1) i = Some m -> exists ivs op w,
        alternates m tr ivs op /\ nth_error (timers p1) i = Some w /\ w_acc w = total ivs /\
        (match op with Some a => w_start w = a | None => True end) /\
        nth_error (calls p1) i = Some (Z.of_nat (List.length ivs)) /\
        nth_error (starts p1) i = Some (match op with Some _ => true | None => false end))).
    { destruct (index_of (indices p) n) as [i|] eqn:E.
      - exists p. destruct H as [Hlt Hlc Hls Hnd Hix Hin Hv]. split; auto. split; auto. split; auto. split; auto. split; auto. split; auto.
        split; auto. intros m. split; auto. intros [Hm| ->]; auto. apply Hix in E. eapply nth_error_In; eauto.
      - destruct (register_inv tr p n H E) as (Hni & A1 & A2 & A3 & A4 & A5 & A6).
        eexists. split; [reflexivity|]. split; auto. split; auto. split; auto. split; auto. split; auto. split; auto.
        intros m. simpl. rewrite in_app_iff. simpl. intuition. }
    destruct Hreg as (p1 & -> & A1 & A2 & A3 & A4 & A5 & A6 & A7).
    assert (Hin : In n (names p1)) by (apply A6; auto).
    apply In_nth_error in Hin as [i Hi]. pose proof (proj2 (A5 n i) Hi) as Ei. rewrite Ei.
    destruct (A7 i n Hi) as (ivs & op & w & B1 & B2 & B3 & B4 & B5 & B6).
    rewrite (oread_some _ _ _ B6). cbn [obind].
    assert (Hil : i < List.length (names p1)) by (apply nth_error_Some; congruence).
    split.
    + intros [ivs' Ha]. destruct (alternates_fun _ _ _ _ _ _ B1 Ha) as [<- ->].
      rewrite (oread_some _ _ _ B2). cbn [obind]. rewrite !owrite_some by lia. cbn [obind].
      eexists. split; [reflexivity|]. constructor; simpl; auto; try (rewrite upd_length; auto).
      * intros m. rewrite A6, (v_in _ _ H), own_app. simpl. destruct (String.eqb_spec n m) as [->|Hne].
        -- split; auto. intros _ Hx. destruct (own m tr); discriminate.
        -- rewrite app_nil_r. split; [intros [?|?]; auto; congruence|auto].
      * intros j m Hj. destruct (Nat.eq_dec i j) as [<-|Hij].
        -- assert (m = n) by congruence. subst m. exists ivs, (Some now). eexists.
           rewrite !nth_error_upd_eq by lia. split; [apply alternates_start; auto|].
           split; [reflexivity|]. simpl. repeat split; auto.
        -- destruct (A7 j m Hj) as (ivs' & op & w' & C1 & C2 & C3 & C4 & C5 & C6).
           exists ivs', op, w'. rewrite !nth_error_upd_ne by auto. repeat split; auto.
           apply alternates_other; auto. simpl. intros ->. apply Hij. eapply NoDup_nth_inj; eauto.
    + intros Hna. destruct op as [a|]; auto. exfalso. apply Hna. eauto.
  - (* stop *)
    unfold stop. destruct (index_of (indices p) n) as [i|] eqn:Ei.
    + destruct H as [Hlt Hlc Hls Hnd Hix Hin Hv]. pose proof (proj1 (Hix n i) Ei) as Hi.
      destruct (Hv i n Hi) as (ivs & op & w & B1 & B2 & B3 & B4 & B5 & B6).
      rewrite (oread_some _ _ _ B6). cbn [obind].
      assert (Hil : i < List.length (names p)) by (apply nth_error_Some; congruence).
      split.
      * intros (ivs' & a & Ha). destruct (alternates_fun _ _ _ _ _ _ B1 Ha) as [<- ->]. cbn [negb].
        rewrite (oread_some _ _ _ B2). cbn [obind]. rewrite owrite_some by lia. cbn [obind].
        rewrite (oread_some _ _ _ B5). cbn [obind]. rewrite !owrite_some by lia. cbn [obind].
        eexists. split; [reflexivity|]. constructor; simpl; auto; try (rewrite upd_length; auto).
        -- intros m. rewrite Hin, own_app. simpl. destruct (String.eqb_spec n m) as [->|Hne].
           ++ split; [intros _ Hx; destruct (own m tr); discriminate|]. intros _. apply Hin. eapply nth_error_In; eauto.
           ++ rewrite app_nil_r. reflexivity.
        -- intros j m Hj. destruct (Nat.eq_dec i j) as [<-|Hij].
           ++ assert (m = n) by congruence. subst m. exists (ivs ++ [(a, now)]), None. eexists.
              rewrite !nth_error_upd_eq by lia. split; [apply alternates_stop; auto|].
              split; [reflexivity|]. simpl. rewrite total_app, B3, B4, app_length. simpl. repeat split; auto.
              f_equal. lia.
           ++ destruct (Hv j m Hj) as (ivs' & op & w' & C1 & C2 & C3 & C4 & C5 & C6).
              exists ivs', op, w'. rewrite !nth_error_upd_ne by auto. repeat split; auto.
              apply alternates_other; auto. simpl. intros ->. apply Hij. eapply NoDup_nth_inj; eauto.
      * intros Hna. destruct op as [a|]; auto. exfalso. apply Hna. eauto.
    + split; auto. intros (ivs & a & Ha). exfalso.
      assert (Hx : own n tr <> []) by (unfold alternates in Ha; rewrite Ha; destruct ivs; discriminate).
      apply (v_in _ _ H) in Hx. apply In_nth_error in Hx as [i Hi]. apply (v_ix _ _ H) in Hi. congruence.
Qed.

Lemma run_snoc tr e : run (tr ++ [e]) = let* p := run tr in step p e.
Proof. unfold run. rewrite ofold_app. destruct (ofold step tr profiler0); simpl; auto. destruct (step a e); auto. Qed.

Lemma run_inv tr p : run tr = Ok p -> inv tr p.
Proof.
  revert p. induction tr as [|e tr IH] using rev_ind; intros p H.
  - inversion H; subst. apply inv0.
  - rewrite run_snoc in H. apply obind_ok in H as (p1 & E1 & H). specialize (IH _ E1).
    destruct (step_ok tr p1 e IH) as [Hy Hn].
    assert (Ha : acceptable tr e).
    { destruct e as [n now|n now]; destruct (inv_alternates tr p1 n IH) as (ivs & [a|] & Ha); simpl; eauto;
        exfalso; rewrite Hn in H; try discriminate; simpl.
      - intros (ivs' & Ha'). destruct (alternates_fun _ _ _ _ _ _ Ha Ha'). discriminate.
      - intros (ivs' & b & Ha'). destruct (alternates_fun _ _ _ _ _ _ Ha Ha'). discriminate. }
    destruct (Hy Ha) as (p2 & E2 & Hi2). congruence.
Qed.

Lemma alternates_prefix n tr e ivs op : alternates n (tr ++ [e]) ivs op -> exists ivs' op', alternates n tr ivs' op' /\
  (name_of e = n -> acceptable tr e).
Proof.
  unfold alternates at 1. rewrite own_app. destruct (String.eqb_spec (name_of e) n) as [Hn|Hne].
  - destruct op as [a|].
    + intros E. apply app_inj_tail in E as [E Ee]. exists ivs, None.
      assert (alternates n tr ivs None) by (unfold alternates; rewrite app_nil_r; auto). split; auto. intros _.
      rewrite Ee. simpl; eauto.
    + rewrite app_nil_r. destruct ivs as [|iv ivs] using rev_ind.
      * intros E. destruct (own n tr); discriminate.
      * rewrite flat_map_app. simpl. intros E. destruct iv as [a b]. simpl in E.
        change [Start n a; Stop n b] with ([Start n a] ++ [Stop n b]) in E.
        rewrite app_assoc in E. apply app_inj_tail in E as [E Ee].
        exists ivs, (Some a). split; [exact E|]. intros _. rewrite Ee. simpl. exists ivs, a. exact E.
  - rewrite app_nil_r. intros E. exists ivs, op. split; auto. intros; contradiction.
Qed.

Lemma run_cases tr : (forall n, exists ivs op, alternates n tr ivs op) -> exists p, run tr = Ok p.
Proof.
  induction tr as [|e tr IH] using rev_ind; intros H; [exists profiler0; reflexivity|].
  destruct IH as [p E].
  { intros n. destruct (H n) as (ivs & op & Ha). apply alternates_prefix in Ha as (ivs' & op' & Ha & _). eauto. }
  pose proof (run_inv _ _ E) as Hi.
  destruct (H (name_of e)) as (ivs & op & Ha). apply alternates_prefix in Ha as (ivs' & op' & _ & Hacc).
  destruct (proj1 (step_ok tr p e Hi) (Hacc eq_refl)) as (p' & E' & _).
  exists p'. rewrite run_snoc, E. exact E'.
Qed.

Lemma run_no_ub tr : run tr <> UB.
Proof.
  induction tr as [|e tr IH] using rev_ind; [discriminate|]. rewrite run_snoc.
  destruct (run tr) as [p| |] eqn:E; try discriminate; auto. cbn [obind].
  pose proof (run_inv _ _ E) as Hi. destruct (step_ok tr p e Hi) as [Hy Hn].
  intros HU. assert (Hna : ~ acceptable tr e).
  { intros Ha. destruct (Hy Ha) as (p' & E' & _). congruence. }
  specialize (Hn Hna). congruence.
Qed.

Lemma run_iff tr : (exists p, run tr = Ok p) <-> (forall n, exists ivs op, alternates n tr ivs op).
Proof.
  split; [|apply run_cases]. intros [p E] n. eapply inv_alternates. apply run_inv; eauto.
Qed.

Lemma run_rejects tr : ~ (forall n, exists ivs op, alternates n tr ivs op) -> run tr = Abort.
Proof.
  intros H. destruct (run tr) as [p| |] eqn:E; auto.
  - exfalso. apply H. apply run_iff; eauto.
  - exfalso. apply (run_no_ub tr); auto.
Qed.

Lemma nth_rows p i n w c : nth_error (names p) i = Some n -> nth_error (timers p) i = Some w ->
  nth_error (calls p) i = Some c -> nth_error (rows p) i = Some (n, w_acc w, c).
Proof.
  intros H1 H2 H3. unfold rows. rewrite nth_error_map.
  assert (Hz : forall {A B} (l : list A) (l' : list B) i a b, nth_error l i = Some a -> nth_error l' i = Some b ->
            nth_error (combine l l') i = Some (a, b)).
  { clear. induction l as [|x l IH]; intros [|y l'] [|i] a b Ha Hb; simpl in *; try discriminate; [congruence|auto]. }
  rewrite (Hz _ _ (names p) (combine (timers p) (calls p)) i n (w, c)); auto.
Qed.

Lemma print_rows tr p : run tr = Ok p ->
  ((forall n, exists ivs, alternates n tr ivs None) <-> exists rs, print p = Ok rs) /\
  (forall rs, print p = Ok rs -> NoDup (map (fun r => fst (fst r)) rs) /\
     forall n t c, In (n, t, c) rs <->
       exists ivs, alternates n tr ivs None /\ ivs <> [] /\ t = total ivs /\ c = Z.of_nat (List.length ivs)).
Proof.
  intros E. pose proof (run_inv _ _ E) as Hi. destruct Hi as [Hlt Hlc Hls Hnd Hix Hin Hv].
  assert (Hst : forallb negb (starts p) = true <-> forall n, exists ivs, alternates n tr ivs None).
  { split.
    - intros Hb n. destruct (inv_alternates tr p n (run_inv _ _ E)) as (ivs & [a|] & Ha); [|eauto].
      exfalso. assert (Hx : In n (names p)).
      { apply Hin. unfold alternates in Ha. rewrite Ha. destruct ivs; discriminate. }
      apply In_nth_error in Hx as [i Hx]. destruct (Hv i n Hx) as (ivs' & op & w & B1 & _ & _ & _ & _ & B6).
      destruct (alternates_fun _ _ _ _ _ _ Ha B1) as [_ <-].
      rewrite forallb_forall in Hb. apply nth_error_In in B6. specialize (Hb _ B6). discriminate.
    - intros Ha. apply forallb_forall. intros b Hb. apply In_nth_error in Hb as [i Hb].
      destruct (nth_error (names p) i) as [n|] eqn:En.
      + destruct (Hv i n En) as (ivs' & op & w & B1 & _ & _ & _ & _ & B6). destruct (Ha n) as [ivs Hn].
        destruct (alternates_fun _ _ _ _ _ _ Hn B1) as [_ <-]. simpl in B6. assert (b = false) by congruence. subst; auto.
      + apply nth_error_None in En. assert (i < List.length (starts p)) by (apply nth_error_Some; congruence). lia. }
  unfold print. split.
  - rewrite <- Hst. destruct (forallb negb (starts p)); simpl; split; eauto; [intros; discriminate|]. intros [rs Hx]; discriminate.
  - intros rs H. apply oassert_ok in H as [Hb H]. inversion H; subst rs. pose proof (proj1 Hst Hb) as Hall. clear H.
    split.
    + replace (map (fun r : string * Z * Z => fst (fst r)) (rows p)) with (names p); auto.
      unfold rows. clear - Hlt Hlc. revert Hlt Hlc. generalize (timers p) (calls p).
      induction (names p) as [|n l IH]; intros [|t ts] [|c cs] H1 H2; simpl in *; try discriminate; auto.
      f_equal. apply IH; lia.
    + intros n t c. split.
      * intros Hr. apply In_nth_error in Hr as [i Hr].
        assert (Hil : i < List.length (rows p)) by (apply nth_error_Some; congruence).
        unfold rows in Hil. rewrite map_length, !combine_length in Hil.
        destruct (nth_error (names p) i) as [n'|] eqn:En; [|apply nth_error_None in En; lia].
        destruct (Hv i n' En) as (ivs & op & w & B1 & B2 & B3 & B4 & B5 & B6).
        rewrite (nth_rows p i n' w _ En B2 B5) in Hr. inversion Hr; subst.
        destruct (Hall n) as [ivs' Ha]. destruct (alternates_fun _ _ _ _ _ _ Ha B1) as [-> <-].
        exists ivs. split; auto. split; auto.
        intros ->. apply nth_error_In, Hin in En. apply En. unfold alternates in Ha. rewrite Ha. reflexivity.
      * intros (ivs & Ha & Hne & -> & ->).
        assert (Hx : In n (names p)).
        { apply Hin. unfold alternates in Ha. rewrite Ha. destruct ivs; [contradiction|discriminate]. }
        apply In_nth_error in Hx as [i Hx]. destruct (Hv i n Hx) as (ivs' & op & w & B1 & B2 & B3 & B4 & B5 & B6).
        destruct (alternates_fun _ _ _ _ _ _ Ha B1) as [<- _]. rewrite <- B3.
        eapply nth_error_In. apply nth_rows; eauto.
Qed.
