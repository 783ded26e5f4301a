(** Proofs about reading samples back for training, and about the energy of singular values. *)
From Coq Require Import ZArith List String Bool Lia Reals Lra.
From Verif Require Import Outcome ListLemmas TagsModel TagsSpec TagsProofs ConfigModel ConfigSpec ConfigProofs
  SamplingModel CompProofs SnapshotModel SnapshotSpec SnapshotProofs SnapshotCollect WorkModel WorkSpec WorkProofs WorkTagProofs.
Import ListNotations.
Open Scope string_scope.
Open Scope list_scope.

Lemma string_app_inj_l a : forall b c, (a ++ b)%string = (a ++ c)%string -> b = c.
Proof. induction a; simpl; intros b c H; auto. inversion H; auto. Qed.
Lemma string_app_length a b : String.length (a ++ b)%string = (String.length a + String.length b)%nat.
Proof. induction a; simpl; auto. Qed.
Lemma string_app_inj_r c : forall a b, (a ++ c)%string = (b ++ c)%string -> a = b.
Proof.
  induction a as [|x a IH]; intros [|y b] H; auto.
  - apply (f_equal String.length) in H. rewrite string_app_length in H. simpl in H.
    rewrite string_app_length in H. lia.
  - apply (f_equal String.length) in H. simpl in H. rewrite !string_app_length in H. lia.
  - simpl in H. inversion H. f_equal; auto.
Qed.
Lemma snapshot_name_inj prefix t t' : snapshot_name prefix t = snapshot_name prefix t' -> print_tag t = print_tag t'.
Proof.
  unfold snapshot_name, base_filename. intros H. apply string_app_inj_r in H. apply string_app_inj_l in H.
  apply string_app_inj_l in H. exact H.
Qed.

Section Collect.
  Context {K : Type} (accepts : list K -> bool).
  Notation sgK := (sg K).
  Notation bsel := (sel tag_dec).
  Notation disk := (string -> option (gen K)).

  Lemma load_files (d : disk) : forall files fgs g, Forall2 (fun f fg => d f = Some fg) files fgs ->
    ofold (load_file accepts d) files g = load_samples accepts g (List.concat (map g_cols fgs)).
  Proof.
    intros files fgs g H. revert g. induction H as [|f fg files fgs Hf H IH]; intros g; [reflexivity|].
    cbn [ofold map List.concat]. unfold load_file at 1. rewrite Hf. unfold load_samples at 2. rewrite ofold_app.
    fold (load_samples accepts g (g_cols fg)). destruct (load_samples accepts g (g_cols fg)); cbn [obind]; auto. apply IH.
  Qed.

  (** several files are one file with their columns one after the other *)
  Lemma collect_basis_eq (d : disk) (s : sgK) t files fgs : Forall2 (fun f fg => d f = Some fg) files fgs -> forall fg0 rest, fgs = fg0 :: rest ->
    collect_basis accepts d s t files =
    collect_by_basis accepts (fun _ => Some {| g_dim := g_dim fg0; g_cols := List.concat (map g_cols fgs) |}) s t.
  Proof.
    intros HF fg0 rest E. unfold collect_basis, collect_by_basis. cbn [g_dim g_cols].
    destruct files as [|f0 files]; [inversion HF; subst; discriminate|].
    cbn [oread nth_error obind]. assert (Hd0 : d f0 = Some fg0) by (subst fgs; inversion HF; auto). rewrite Hd0.
    destruct (0 <? g_dim fg0)%nat; cbn [oassert]; auto.
    destruct (if map_count basis_tag_lt (tag2idx s) t then Ok s else add_snapshot_generator s (g_dim fg0) t) as [s1| |]; cbn [obind]; auto.
    destruct (map_at basis_tag_lt (tag2idx s1) t) as [m' index].
    destruct (oread (gens s1) index) as [g| |]; cbn [obind]; auto.
    rewrite (load_files d _ _ g HF). reflexivity.
  Qed.

  (** what is on disk for a list of files *)
  Definition contents (d : disk) (files : list string) (n : nat) (cols : list (list K)) : Prop :=
    exists fgs, Forall2 (fun f fg => d f = Some fg /\ g_dim fg = n) files fgs /\ cols = List.concat (map g_cols fgs) /\
      forall u, In u cols -> List.length u = n /\ accepts u = true.

  Lemma collect_train dim (cfgfiles : basis_tag -> outcome (list string)) (d : disk) (cols : basis_tag -> list (list K)) : forall ts ps (s : sgK),
    inv_b dim ps s ->
    (forall t, In t ts -> (0 < dim t)%nat /\ exists files, cfgfiles t = Ok files /\ files <> [] /\ contents d files (dim t) (cols t)) ->
    exists s', ofold (fun s t => let* files := cfgfiles t in
                 oassert (0 <? List.length files)%nat (collect_basis accepts d s t files)) ts s = Ok s' /\
      inv_b dim (ps ++ flat_map (fun t => map (pair t) (cols t)) ts) s' /\
      (forall t', In t' (tags s') <-> In t' (tags s) \/ In t' ts).
  Proof.
    induction ts as [|t ts IH]; intros ps s Hinv H; simpl.
    - exists s. rewrite app_nil_r. split; auto. split; auto. intuition.
    - destruct (H t (or_introl eq_refl)) as (Hpos & files & Hf & Hne & fgs & HF & Hc & Hu).
      rewrite Hf. cbn [obind]. destruct files as [|f0 files]; [contradiction|]. cbn [List.length Nat.ltb Nat.leb oassert].
      destruct fgs as [|fg0 fgs]; [inversion HF|].
      assert (HF' : Forall2 (fun f fg => d f = Some fg) (f0 :: files) (fg0 :: fgs)).
      { eapply Forall2_weaken; [|exact HF]. intros a b [Hab _]; auto. }
      assert (Hd0 : g_dim fg0 = dim t) by (inversion HF as [|? ? ? ? [_ Hd0] _]; auto).
      rewrite (collect_basis_eq d s t (f0 :: files) (fg0 :: fgs) HF' fg0 fgs eq_refl).
      destruct (collect_by_basis_ok accepts dim ps s (fun _ => Some {| g_dim := g_dim fg0; g_cols := List.concat (map g_cols (fg0 :: fgs)) |})
                  t _ Hinv eq_refl) as (s1 & E1 & Hi1 & _ & Ht1); auto.
      { cbn [g_cols]. rewrite <- Hc. exact Hu. }
      rewrite E1. cbn [obind]. cbn [g_cols] in Hi1. rewrite <- Hc in Hi1.
      destruct (IH _ _ Hi1) as (s2 & E2 & Hi2 & Ht2).
      { intros t' Ht'. apply H; simpl; auto. }
      exists s2. split; auto. rewrite <- app_assoc in Hi2. split; auto.
      intros t'. rewrite Ht2, Ht1. intuition.
  Qed.

  Lemma flat_pairs_fst (cols : basis_tag -> list (list K)) ts : (forall t, In t ts -> cols t <> []) ->
    forall t', In t' (map fst (flat_map (fun t => map (pair t) (cols t)) ts)) <-> In t' ts.
  Proof.
    intros Hne t'. rewrite in_map_iff. split.
    - intros ([a b] & <- & Hin). apply in_flat_map in Hin as (t & Ht & Hin). apply in_map_iff in Hin as (u & E & _).
      inversion E; subst; auto.
    - intros Ht. specialize (Hne t' Ht). destruct (cols t') as [|u us] eqn:E; [contradiction|]. exists (t', u). split; auto.
      apply in_flat_map. exists t'. split; auto. rewrite E. simpl; auto.
  Qed.

  Lemma collected_columns dim (cols : basis_tag -> list (list K)) ts (s : sgK) : NoDup ts -> (forall t, In t ts -> cols t <> []) ->
    inv_b dim (flat_map (fun t => map (pair t) (cols t)) ts) s -> (forall t, In t (tags s) <-> In t ts) ->
    forall t, look_up_snapshot s t = if in_dec tag_dec t ts then Ok (cols t) else Abort.
  Proof.
    intros Hnd Hne Hi Ht t.
    assert (Ht' : forall t, In t (tags s) <-> In t (map fst (flat_map (fun t => map (pair t) (cols t)) ts))).
    { intros t0. rewrite Ht, flat_pairs_fst; auto. tauto. }
    rewrite (look_up_snapshot_inv dim _ s t Hi Ht').
    rewrite (sel_groups tag_dec cols ts t Hnd). destruct (in_dec tag_dec t ts) as [Hin|Hin]; auto.
    specialize (Hne t Hin). destruct (cols t); [contradiction|auto].
  Qed.

  (** a missing file *)
  Lemma collect_missing (cfgfiles : basis_tag -> outcome (list string)) (d : disk) : forall ts (s s' : sgK),
    ofold (fun s t => let* files := cfgfiles t in
             oassert (0 <? List.length files)%nat (collect_basis accepts d s t files)) ts s = Ok s' ->
    forall t files f, In t ts -> cfgfiles t = Ok files -> In f files -> d f <> None.
  Proof.
    induction ts as [|t0 ts IH]; intros s s' H t files f Hin Hf Hin'; [destruct Hin|].
    cbn [ofold] in H. apply obind_ok in H as (s1 & E1 & H). destruct Hin as [->|Hin]; [|eapply IH; eauto].
    rewrite Hf in E1. cbn [obind] in E1. apply oassert_ok in E1 as [_ E1]. unfold collect_basis in E1.
    apply obind_ok in E1 as (f0 & _ & E1). destruct (d f0) as [fg|]; [|discriminate].
    apply oassert_ok in E1 as [_ E1]. apply obind_ok in E1 as (s2 & _ & E1). destruct (map_at _ _ _) as [m' idx].
    apply obind_ok in E1 as (g & _ & E1). apply obind_ok in E1 as (g' & E1 & _).
    clear - E1 Hin'. revert g E1. induction files as [|a files IH]; intros g E1; [destruct Hin'|].
    cbn [ofold] in E1. apply obind_ok in E1 as (g1 & Ea & E1). destruct Hin' as [->|Hin'].
    - unfold load_file in Ea. destruct (d f); [discriminate|discriminate].
    - eapply IH; eauto.
  Qed.

  (** files written by a sampling run *)
  Lemma write_disk_spec prefix (s : sgK) (d d' : disk) : write_disk prefix s d = Ok d' ->
    (forall t, d' (snapshot_name prefix t) =
       match write_snapshots s (print_tag t) with Some g => Some g | None => d (snapshot_name prefix t) end) /\
    (forall n, (forall t, In t (tags s) -> n <> snapshot_name prefix t) -> d' n = d n).
  Proof.
    unfold write_disk, write_snapshots. intros H. apply oassert_ok in H as [_ H]. inversion H; subst d'. clear H. split.
    - intros t. induction (combine (tags s) (gens s)) as [|[a g] l IH] using rev_ind; [reflexivity|].
      rewrite !fold_left_app. cbn [fold_left]. 
      destruct (String.eqb_spec (snapshot_name prefix t) (snapshot_name prefix a)) as [E|Hne].
      + apply snapshot_name_inj in E. rewrite E, String.eqb_refl. reflexivity.
      + destruct (String.eqb_spec (print_tag t) (print_tag a)) as [E|_]; [|exact IH].
        exfalso. apply Hne. unfold snapshot_name, base_filename. rewrite E. reflexivity.
    - intros n Hn. assert (Hin : forall a g, In (a, g) (combine (tags s) (gens s)) -> n <> snapshot_name prefix a).
      { intros a g Hin. apply Hn. eapply in_combine_l; eauto. }
      clear Hn. induction (combine (tags s) (gens s)) as [|[a g] l IH] using rev_ind; [reflexivity|].
      rewrite !fold_left_app. cbn [fold_left]. destruct (String.eqb_spec n (snapshot_name prefix a)) as [E|_].
      + exfalso. apply (Hin a g); auto. apply in_or_app; simpl; auto.
      + apply IH. intros a' g' H'. apply (Hin a' g'). apply in_or_app; auto.
  Qed.

  Lemma history_block_dim (h : list (event K)) dim t u : same_dims h dim -> In u (columns h t) -> List.length u = dim t.
  Proof.
    intros Hd Hin. unfold columns in Hin. apply in_map_iff in Hin as ([a b] & <- & Hin). apply filter_In in Hin as [Hin Ht].
    simpl in *. destruct (tag_dec a t); [|discriminate]. subst. apply Hd; auto.
  Qed.
  Lemma history_block_acc (h : list (event K)) dim s rs t u : inv accepts dim h s rs -> In u (columns h t) -> accepts u = true.
  Proof.
    intros Hi Hin. unfold columns in Hin. apply in_map_iff in Hin as ([a b] & <- & Hin). apply filter_In in Hin as [Hin Ht].
    simpl. apply (i_acc _ _ _ _ _ Hi (a, b) Hin).
  Qed.

  (** a sampling run, then training from its default files *)
  Lemma sampled_contents dim vars h s prefix (d0 d : disk) t : plain_vars vars -> proper_history vars h -> same_dims h dim ->
    run_history accepts h = Ok s -> write_disk prefix s d0 = Ok d -> columns h t <> [] ->
    contents d [snapshot_name prefix t] (dim t) (columns h t).
  Proof.
    intros Hpv Hp Hd Hr Hw Hne. destruct (run_inv accepts dim h s Hd Hr) as [rs Hi].
    assert (Hin : In t (tags s)).
    { apply (i_tags _ _ _ _ _ Hi). rewrite columns_sel in Hne.
      destruct (in_dec tag_dec t (map fst (flat_map event_blocks h))) as [Hin|Hn]; auto.
      exfalso. apply Hne. apply sel_nil_notin; auto. }
    destruct (write_snapshots_spec dim _ s t (i_b _ _ _ _ _ Hi)) as (g & Hg & Hgd & Hgc); auto.
    { intros t1 t2 H1 H2. apply (plain_inj vars); auto; apply (history_tag_var vars h); auto; apply (i_tags _ _ _ _ _ Hi); auto. }
    destruct (write_disk_spec prefix s d0 d Hw) as [Hds _].
    exists [g]. split; [|split].
    - constructor; [|constructor]. rewrite Hds, Hg. auto.
    - simpl. rewrite app_nil_r. rewrite columns_sel. auto.
    - intros u Hu. split; [eapply history_block_dim; eauto|eapply history_block_acc; eauto].
  Qed.

  Lemma sampled_missing dim vars h s prefix (d0 d : disk) t : plain_vars vars -> proper_history vars h -> same_dims h dim ->
    run_history accepts h = Ok s -> write_disk prefix s d0 = Ok d -> In (var t) vars -> columns h t = [] ->
    d (snapshot_name prefix t) = d0 (snapshot_name prefix t).
  Proof.
    intros Hpv Hp Hd Hr Hw Hv Hnil. destruct (run_inv accepts dim h s Hd Hr) as [rs Hi].
    destruct (write_disk_spec prefix s d0 d Hw) as [_ Hdn]. apply Hdn. intros t' Ht' E. apply snapshot_name_inj in E.
    assert (Hin : In t' (map fst (flat_map event_blocks h))) by (apply (i_tags _ _ _ _ _ Hi); auto).
    assert (t = t') by (apply (plain_inj vars); auto; apply (history_tag_var vars h); auto). subst t'.
    rewrite columns_sel in Hnil. apply sel_nil_notin in Hnil. contradiction.
  Qed.
End Collect.

(** ** Energy *)
Section Energy.
  Open Scope R_scope.
  Lemma prefix_sum_cons x l n : prefix_sum (x :: l) (S n) = x + prefix_sum l n.
  Proof. reflexivity. Qed.

  (** the loop from index d on *)
  Lemma sv_loop_spec ref : forall sv d cov total,
    sv_loop sv ref d cov total =
    (if ((d <=? ref) && (ref <? d + Z.of_nat (List.length sv)))%Z
     then total + prefix_sum sv (Z.to_nat (ref - d)) else cov,
     total + prefix_sum sv (List.length sv), (d + Z.of_nat (List.length sv))%Z).
  Proof.
    induction sv as [|x sv IH]; intros d cov total.
    - cbn [sv_loop List.length prefix_sum firstn fold_right]. rewrite Z.add_0_r.
      destruct (d <=? ref)%Z eqn:E1, (ref <? d)%Z eqn:E2; cbn [andb]; try (f_equal; f_equal; ring).
      apply Z.leb_le in E1. apply Z.ltb_lt in E2. lia.
    - cbn [sv_loop]. rewrite IH. cbn [List.length]. rewrite prefix_sum_cons.
      replace (d + 1 + Z.of_nat (List.length sv))%Z with (d + Z.of_nat (S (List.length sv)))%Z by lia.
      f_equal. f_equal; [|ring].
      destruct (Z.eqb_spec d ref) as [->|Hne].
      + destruct (Z.leb_spec (ref + 1) ref); [lia|]. destruct (Z.leb_spec ref ref); [|lia].
        destruct (Z.ltb_spec ref (ref + Z.of_nat (S (List.length sv)))); [|lia]. cbn [andb].
        rewrite Z.sub_diag. cbn [Z.to_nat]. unfold prefix_sum. simpl. ring.
      + destruct (Z.leb_spec (d + 1) ref), (Z.leb_spec d ref); try lia; cbn [andb]; auto.
        destruct (Z.ltb_spec ref (d + Z.of_nat (S (List.length sv)))); auto.
        replace (Z.to_nat (ref - d)) with (S (Z.to_nat (ref - (d + 1)))) by lia. rewrite prefix_sum_cons. ring.
  Qed.

  Lemma energy_eq sv (n : nat) : prefix_sum sv (List.length sv) <> 0 -> (n <= List.length sv)%nat ->
    energy sv (Z.of_nat n) = Some (prefix_sum sv n / prefix_sum sv (List.length sv)).
  Proof.
    intros Ht Hn. unfold energy. rewrite sv_loop_spec. rewrite Z.add_0_l, Z.sub_0_r, Nat2Z.id, !Rplus_0_l.
    destruct (Req_EM_T _ _); [contradiction|]. f_equal. f_equal.
    destruct (Z.eqb_spec (Z.of_nat (List.length sv)) (Z.of_nat n)) as [E|E].
    - apply Nat2Z.inj in E. subst. reflexivity.
    - destruct (Z.leb_spec 0 (Z.of_nat n)); [|lia]. destruct (Z.ltb_spec (Z.of_nat n) (Z.of_nat (List.length sv))); [|lia].
      reflexivity.
  Qed.
  Lemma energy_beyond sv (ref : Z) : prefix_sum sv (List.length sv) <> 0 -> (ref < 0 \/ Z.of_nat (List.length sv) < ref)%Z ->
    energy sv ref = Some 0.
  Proof.
    intros Ht Hn. unfold energy. rewrite sv_loop_spec. rewrite Z.add_0_l, !Rplus_0_l.
    destruct (Req_EM_T _ _); [contradiction|]. f_equal.
    destruct (Z.eqb_spec (Z.of_nat (List.length sv)) ref) as [E|E]; [lia|].
    destruct (Z.leb_spec 0 ref), (Z.ltb_spec ref (Z.of_nat (List.length sv))); cbn [andb]; try lia; unfold Rdiv; ring.
  Qed.
  Lemma energy_none sv ref : prefix_sum sv (List.length sv) = 0 -> energy sv ref = None.
  Proof.
    intros Ht. unfold energy. rewrite sv_loop_spec. rewrite !Rplus_0_l. destruct (Req_EM_T _ _); [auto|contradiction].
  Qed.

  Lemma prefix_sum_mono sv : Forall (fun x => 0 <= x) sv -> forall n m, (n <= m)%nat -> 0 <= prefix_sum sv n <= prefix_sum sv m.
  Proof.
    intros H. induction H as [|x l Hx H IH]; intros n m Hnm.
    - unfold prefix_sum. rewrite !firstn_nil. simpl. lra.
    - destruct n as [|n], m as [|m]; try lia; rewrite ?prefix_sum_cons.
      + unfold prefix_sum; simpl; lra.
      + destruct (IH O m) as [H1 H2]; [lia|]. unfold prefix_sum at 1 2. simpl. unfold prefix_sum in H1, H2. simpl in H2. 
        unfold prefix_sum. lra.
      + destruct (IH n m); [lia|]. lra.
  Qed.
End Energy.

(** ** Bases written *)
Section Form.
  Context {K : Type} (dstr : tree -> outcome string) (dint : tree -> outcome Z).

  Lemma string_app_assoc a b c : ((a ++ b) ++ c)%string = (a ++ (b ++ c))%string.
  Proof. induction a; simpl; auto. f_equal; auto. Qed.

  Lemma find_tag_nodup : forall l i (t : basis_tag) k, NoDup l -> nth_error l i = Some t -> find_tag l t k = Some (k + i)%nat.
  Proof.
    induction l as [|a l IH]; intros i t k Hnd Hi; [destruct i; discriminate|]. inversion Hnd; subst. cbn [find_tag].
    pose proof (find_tag_spec [a] t 0) as Ha. cbn [find_tag] in Ha. destruct i as [|i]; simpl in Hi.
    - inversion Hi; subst. destruct (basis_tag_eqb t t); [f_equal; lia|]. exfalso. apply Ha. simpl; auto.
    - destruct (basis_tag_eqb a t).
      + destruct Ha as [_ Ha]. simpl in Ha. inversion Ha; subst. exfalso. apply H1. eapply nth_error_In; eauto.
      + rewrite (IH i t (S k)); auto. f_equal. lia.
  Qed.

  Lemma look_up_nth (s : sg K) i t : NoDup (tags s) -> List.length (gens s) = List.length (tags s) ->
    nth_error (tags s) i = Some t -> look_up_snapshot s t = let* g := oread (gens s) i in Ok (g_cols g).
  Proof.
    intros Hnd Hl Hi. unfold look_up_snapshot. rewrite Hl, Nat.eqb_refl, (find_tag_nodup _ i t 0 Hnd Hi).
    assert (E0 : (0 <? List.length (tags s))%nat = true) by (destruct (tags s); [destruct i; discriminate|reflexivity]).
    rewrite E0. reflexivity.
  Qed.

  Lemma form_spec (s : sg K) cfg bp : NoDup (tags s) -> List.length (gens s) = List.length (tags s) -> tags s <> [] ->
    forall out, (form_reduced_basis dstr dint cfg bp s = Ok out <->
      Forall2 (fun t r => fst (fst r) = base_filename bp t /\ look_up_snapshot s t = Ok (snd (fst r)) /\ snd (fst r) <> [] /\
                          train_num_basis dstr dint cfg t = Ok (snd r)) (tags s) out).
  Proof.
    intros Hnd Hl Hne out. unfold form_reduced_basis. rewrite Hl, Nat.eqb_refl.
    assert (E0 : (0 <? List.length (tags s))%nat = true) by (destruct (tags s); [contradiction|reflexivity]).
    rewrite E0. unfold oassert at 1 2. rewrite omap_ok.
    assert (HG : Forall2 (fun t g => look_up_snapshot s t = Ok (g_cols g)) (tags s) (gens s)).
    { apply Forall2_of_nth; [auto|]. intros i t g H1 H2. rewrite (look_up_nth s i t); auto. unfold oread. rewrite H2. reflexivity. }
    clear Hnd Hl Hne E0. revert out.
    generalize (look_up_snapshot s) as look, HG. clear HG. intros look HG. induction HG as [|t g ts gs Hg HG IH]; intros out.
    - simpl. split; intros H; inversion H; constructor.
    - cbn [combine]. split; intros H.
      + inversion H as [|? r ? rs Hr HF]; subst. constructor; [|apply IH; auto].
        cbn beta iota in Hr. apply oassert_ok in Hr as [Hp Hr]. apply obind_ok in Hr as (n & En & Hr). inversion Hr; subst.
        cbn [fst snd]. split; auto. split; auto. split; auto. intros E. rewrite E in Hp. discriminate.
      + inversion H as [|? r ? rs (H1 & H2 & H3 & H4) HF]; subst. constructor; [|apply IH; auto].
        cbn beta iota. assert (Eg : snd (fst r) = g_cols g) by congruence.
        assert (Hp : (0 <? List.length (g_cols g))%nat = true) by (rewrite <- Eg; destruct (snd (fst r)); [contradiction|reflexivity]).
        rewrite Hp. cbn [oassert]. rewrite H4. cbn [obind]. rewrite <- H1, <- Eg. destruct r as [[? ?] ?]. reflexivity.
  Qed.
End Form.
