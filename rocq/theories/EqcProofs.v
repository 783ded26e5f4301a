From Coq Require Import ZArith List Bool String Ascii Reals Lia.
From Verif Require Import Outcome LaBase BcProofs HdfModel HdfSpec HdfProofs EqcModel EqcSpec.
Import ListNotations.
Open Scope list_scope.

Lemma set_row_ok h (m row : list R) i : i < h -> List.length m = h * 3 -> List.length row = 3 ->
  exists m', set_row h 3 m i row = Ok m' /\ List.length m' = h * 3 /\
    forall a b, a < h -> b < 3 -> nth_error m' (a + b * h) = if (a =? i)%nat then nth_error row b else nth_error m (a + b * h).
Proof.
  intros Hi Hm Hr.
  destruct (ofor_inv 3 (fun m j => let* v := oread row j in owrite m (i + j * h) v)
    (fun k m' => List.length m' = h * 3 /\ forall a b, a < h -> b < 3 ->
       nth_error m' (a + b * h) = if (a =? i)%nat && (b <? k)%nat then nth_error row b else nth_error m (a + b * h)) m) as (m' & E & L & H).
  - split; auto. intros a b Ha Hb. destruct (a =? i)%nat; reflexivity.
  - intros j m1 Hj (L1 & H1). destruct (nth_error row j) as [v|] eqn:Ev. 2:{ apply nth_error_None in Ev. lia. }
    exists (upd m1 (i + j * h) v). unfold oread. rewrite Ev. cbn [obind]. rewrite owrite_vec by nia. split; auto.
    rewrite upd_length. split; auto. intros a b Ha Hb. destruct (Nat.eq_dec (a + b * h) (i + j * h)) as [Ee|Ne].
    + assert (a = i /\ b = j) as (-> & ->). { assert (b = j); [|subst; lia]. destruct (Nat.lt_trichotomy b j) as [?|[?|?]]; auto; nia. }
      rewrite nth_error_upd_eq by nia. rewrite Nat.eqb_refl. cbn. rewrite (proj2 (Nat.leb_le j j)) by lia. auto.
    + rewrite nth_error_upd_ne by lia. rewrite H1 by auto. destruct (Nat.eqb_spec a i); cbn [andb]; auto. subst.
      assert (b <> j) by (intros ->; lia). destruct (Nat.ltb_spec b j), (Nat.ltb_spec b (S j)); auto; lia.
  - exists m'. split; auto. split; auto. intros a b Ha Hb. rewrite H by auto. rewrite (proj2 (Nat.ltb_lt b 3)) by auto. rewrite andb_true_r. auto.
Qed.

Lemma transform_nth dim p x j : List.length p = dim -> dim <= 3 -> List.length x = 3 ->
  List.length (transform dim p x) = 3 /\ (j < dim -> nth_error (transform dim p x) j = nth_error p j) /\
  (dim <= j -> nth_error (transform dim p x) j = nth_error x j).
Proof.
  intros Hp Hd Hx. unfold transform. rewrite <- Hp. rewrite firstn_all. rewrite app_length, skipn_length. split; [lia|]. split; intros Hj.
  - apply nth_error_app1; auto.
  - rewrite nth_error_app2 by auto. clear - Hj. revert j x Hj. induction p; intros; cbn in *; [f_equal; lia|].
    destruct j; [lia|]. destruct x; [destruct (S j - S (List.length p)); reflexivity|]. cbn. apply IHp. lia.
Qed.

Lemma coords_ok dim f np stk s : dim <= 3 -> (forall el qp, List.length (q_pos f el qp) = dim) -> (forall i, List.length (stk i) = 3) ->
  (forall e, In e s -> (0 <= si_el e < Z.of_nat (q_nel f))%Z /\ (0 <= si_qp e < Z.of_nat np)%Z) ->
  exists m, coords_matrix dim f np stk s = Ok m /\ List.length m = List.length s * 3 /\
    forall i j e, nth_error s i = Some e -> j < 3 ->
      nth_error m (i + j * List.length s) = if (j <? dim)%nat then nth_error (q_pos f (si_el e) (si_qp e)) j else nth_error (stk i) j.
Proof.
  intros Hd Hp Hk Hs. unfold coords_matrix.
  edestruct (ofor_inv (List.length s) (fun m i =>
    let* e := oread s i in
    oguard ((0 <=? si_el e)%Z && (si_el e <? Z.of_nat (q_nel f))%Z)
      (oguard ((0 <=? si_qp e)%Z && (si_qp e <? Z.of_nat np)%Z)
        (set_row (List.length s) 3 m i (transform dim (q_pos f (si_el e) (si_qp e)) (stk i)))))
    (fun k m => List.length m = List.length s * 3 /\ forall i j e, i < k -> nth_error s i = Some e -> j < 3 ->
      nth_error m (i + j * List.length s) = if (j <? dim)%nat then nth_error (q_pos f (si_el e) (si_qp e)) j else nth_error (stk i) j)
    (repeat 0%R (List.length s * 3))) as (m & E & L & H).
  - split; [apply repeat_length|]. intros; lia.
  - intros i m1 Hi (L1 & H1). destruct (nth_error s i) as [e|] eqn:Ee. 2:{ apply nth_error_None in Ee. lia. }
    destruct (Hs e (nth_error_In _ _ Ee)) as (He1 & He2). unfold oread. rewrite Ee. cbn [obind].
    rewrite (proj2 (Z.leb_le 0 (si_el e))), (proj2 (Z.ltb_lt (si_el e) _)), (proj2 (Z.leb_le 0 (si_qp e))), (proj2 (Z.ltb_lt (si_qp e) _)) by lia.
    cbn [andb oguard]. destruct (transform_nth dim (q_pos f (si_el e) (si_qp e)) (stk i) 0 (Hp _ _) Hd (Hk i)) as (Lt & _).
    destruct (set_row_ok (List.length s) m1 _ i Hi L1 Lt) as (m' & E' & L' & H'). exists m'. split; auto. split; auto.
    intros a b e' Ha Ee' Hb. assert (Has : a < List.length s) by (apply nth_error_Some; congruence). rewrite H' by auto.
    destruct (Nat.eqb_spec a i) as [->|Na].
    + assert (e' = e) by congruence. subst e'. destruct (transform_nth dim (q_pos f (si_el e) (si_qp e)) (stk i) b (Hp _ _) Hd (Hk i)) as (_ & X & Y).
      destruct (Nat.ltb_spec b dim); auto.
    + apply H1; auto. lia.
  - exists m. split; auto. split; auto. intros i j e He Hj. apply H; auto. apply nth_error_Some. congruence.
Qed.

(** The table written for a component. *)
Definition comp_table (dim : nat) (f : qform) (stk : nat -> list R) (s : list (sinfo R)) (o : hobj R) : Prop :=
  exists a l m, o = Grp a l /\ read_dense {| attrs := a; links := l |} "coords" = Ok m /\ positions dim f s m /\
    forall i j, i < List.length s -> dim <= j < 3 -> dense_at m i j = nth_error (stk i) j.

Lemma save_domain_ok dim f stk s (g : hgroup R) name : dim <= 3 -> trained dim f s -> (forall i, List.length (stk i) = 3) ->
  exists o, save_domain_coords dim f stk 0 g name = h5_create g name o /\ comp_table dim f stk s o.
Proof.
  intros Hd ((q & l & np & Eq & Er & Es & Hs) & Hne & Hp) Hk. unfold save_domain_coords. rewrite Eq. cbn [List.length Nat.eqb].
  change ((0 <=? 0)%Z && (0 <? Z.of_nat (S (List.length l)))%Z) with true. cbn [oassert Z.to_nat oread nth_error obind]. rewrite Er, Es.
  destruct (coords_ok dim f np stk s Hd Hp Hk Hs) as (m & E & L & H). rewrite E. cbn [obind].
  assert (Hpos : 0 < List.length s) by (destruct s; [congruence|cbn; lia]).
  destruct (dense_rt (@empty_group R) "coords" {| dm_h := List.length s; dm_w := 3; dm_data := m |}) as (d & g' & Ew & Ha & _ & m' & Er' & Eh & Ewd & Hat).
  - unfold fresh. cbn. auto.
  - unfold dense_ok. cbn [dm_h dm_w dm_data]. lia.
  - exact Hpos.
  - cbn. lia.
  - rewrite Ew. cbn [obind]. eexists. split; [reflexivity|]. exists (attrs g'), (links g'), m'. split; auto.
    cbn [dm_h dm_w] in *. split; [|split; [split; [auto|split; [auto|]]|]].
    + destruct g'; exact Er'.
    + intros i j e He Hj. assert (i < List.length s) by (apply nth_error_Some; congruence). rewrite Hat by lia. unfold dense_at. cbn [dm_h dm_data].
      rewrite (H i j e) by (auto; lia). rewrite (proj2 (Nat.ltb_lt j dim)) by auto. auto.
    + intros i j Hi Hj. destruct (nth_error s i) as [e|] eqn:Ee. 2:{ apply nth_error_None in Ee. lia. }
      rewrite Hat by lia. unfold dense_at. cbn [dm_h dm_data]. rewrite (H i j e) by (auto; lia). destruct (Nat.ltb_spec j dim); auto; lia.
Qed.

Lemma app_len_ge (a t : string) : String.length t <= String.length (a ++ t)%string.
Proof. induction a; cbn; lia. Qed.

Lemma app_inj_r (a b t : string) : (a ++ t = b ++ t)%string -> a = b.
Proof.
  revert b. induction a; intros b E; destruct b; auto; cbn in E.
  - exfalso. apply (f_equal String.length) in E. cbn in E. pose proof (app_len_ge b t). lia.
  - exfalso. apply (f_equal String.length) in E. cbn in E. pose proof (app_len_ge a0 t). lia.
  - injection E as -> E. f_equal. apply IHa; auto.
Qed.

Lemma save_components_ok dim lf full_dg stk (ss : list (list (sinfo R))) : dim <= 3 -> (forall c i, List.length (stk c i) = 3) -> (lf = true -> full_dg = false) ->
  forall (fs : list qform) names c (g : hgroup R), NoDup names -> List.length names = List.length fs -> Forall2 (trained dim) fs ss ->
  (forall n, In n names -> ~ In (n ++ "_integ0")%string (map fst (links g))) ->
  exists g', save_components dim lf full_dg stk c (combine names (map Some fs)) g = Ok g' /\ attrs g' = attrs g /\
    (forall n, ~ In n (map (fun n => n ++ "_integ0")%string names) -> find_name (links g') n = find_name (links g) n) /\
    (forall k n f s, nth_error names k = Some n -> nth_error fs k = Some f -> nth_error ss k = Some s ->
       exists o, find_name (links g') (n ++ "_integ0") = Some o /\ comp_table dim f (stk (c + k)) s o) /\
    List.length (links g') = List.length names + List.length (links g).
Proof.
  intros Hd Hk Hlf. induction ss as [|s ss IH]; intros fs names c g Hn Hl Ht Hg.
  - inversion Ht; subst. destruct names; [|discriminate]. exists g. cbn. split; auto. split; auto. split; auto. split; auto. intros [|k]; discriminate.
  - inversion Ht as [|f s' fs' ss' Hf Ht']; subst. destruct names as [|n names]; [discriminate|]. cbn [map combine save_components].
    inversion Hn as [|n' names' Hn1 Hn2]; subst.
    destruct (save_domain_ok dim f (stk c) s g (n ++ "_integ0") Hd Hf (Hk c)) as (o & Eo & Ho). rewrite Eo.
    rewrite create_fresh by (apply Hg; left; auto). cbn [obind].
    set (g1 := {| attrs := attrs g; links := ((n ++ "_integ0")%string, o) :: links g |} : hgroup R).
    destruct (IH fs' names (S c) g1) as (g' & E & Ha & Hother & Hthis & Hlen); auto.
    { intros m Hm [Em|Im]; [|apply (Hg m); [right; auto|auto]]. apply app_inj_r in Em. subst m. auto. }
    exists g'. split.
    { rewrite E. destruct lf; auto. rewrite Hlf by auto. auto. }
    split; [exact Ha|]. split; [|split].
    + intros m Hm. rewrite Hother by (intros X; apply Hm; right; auto). unfold g1. cbn [links find_name].
      destruct (String.eqb_spec (n ++ "_integ0") m) as [<-|_]; auto. exfalso. apply Hm. left. auto.
    + intros [|k] m f0 s0 Em Ef Es; cbn in Em, Ef, Es.
      * injection Em as <-. injection Ef as <-. injection Es as <-. exists o. rewrite Nat.add_0_r. split; auto.
        rewrite Hother. { unfold g1. cbn [links find_name]. rewrite String.eqb_refl. auto. }
        intros X. apply in_map_iff in X as (m & Em & Im). apply app_inj_r in Em. subst m. auto.
      * rewrite <- Nat.add_succ_comm. apply (Hthis k m f0 s0); auto.
    + rewrite Hlen. unfold g1. cbn. lia.
Qed.

Lemma save_coords_ok dim lf full_dg stk names fs ss : dim <= 3 -> (forall c i, List.length (stk c i) = 3) -> (lf = true -> full_dg = false) ->
  NoDup names -> List.length names = List.length fs -> Forall2 (trained dim) fs ss ->
  exists file, save_coords dim 0 true lf full_dg stk names (map Some fs) = Ok (Some file) /\ count file = Ok (Z.of_nat (List.length names)) /\
    (forall k n f s, nth_error names k = Some n -> nth_error fs k = Some f -> nth_error ss k = Some s ->
       exists m, table file n = Ok m /\ positions dim f s m /\ forall i j, i < List.length s -> dim <= j < 3 -> dense_at m i j = nth_error (stk k i) j) /\
    (forall n, ~ In n names -> table file n = Abort).
Proof.
  intros Hd Hk Hlf Hn Hl Ht. unfold save_coords. cbn [oassert Nat.eqb]. rewrite map_length, Hl, Nat.eqb_refl. cbn [oassert].
  unfold h5_create_attr. cbn [empty_group attrs links find_name obind]. rewrite <- Hl.
  set (g0 := {| attrs := [("number_of_components"%string, Z.of_nat (List.length names))]; links := [] |} : hgroup R).
  destruct (save_components_ok dim lf full_dg stk ss Hd Hk Hlf fs names 0 g0 Hn Hl Ht) as (g & E & Ha & Ho & Hc & _).
  { intros n _. cbn. auto. }
  rewrite E. cbn [obind]. eexists. split; [reflexivity|]. unfold count, table, h5_open_group. cbn [links find_name String.eqb Ascii.eqb Bool.eqb obind].
  split; [|split].
  - unfold h5_read_attr. cbn [attrs]. rewrite Ha. reflexivity.
  - intros k n f s E1 E2 E3. destruct (Hc k n f s E1 E2 E3) as (o & Eo & a & l & m & -> & Em & Hp & Hr). cbn [links]. rewrite Eo. cbn [obind].
    exists m. auto.
  - intros n Hn'. cbn [links]. rewrite Ho; [reflexivity|]. intros X. apply in_map_iff in X as (m & Em & Im). apply app_inj_r in Em. subst m. auto.
Qed.

Lemma save_domain_complete dim f stk g name g' : save_domain_coords dim f stk 0 g name = Ok g' ->
  forall q l, q_dnfi f = q :: l -> exists np s, qi_rule q = Some np /\ qi_samples q = Some s /\ s <> [].
Proof.
  intros E q l Eq. unfold save_domain_coords in E. rewrite Eq in E. cbn [List.length Nat.eqb] in E.
  change ((0 <=? 0)%Z && (0 <? Z.of_nat (S (List.length l)))%Z) with true in E. cbn [oassert Z.to_nat oread nth_error obind] in E.
  destruct (qi_rule q) as [np|]; [|discriminate]. destruct (qi_samples q) as [s|]; [|discriminate]. exists np, s. split; auto. split; auto.
  intros ->. cbn in E. discriminate.
Qed.

Lemma save_components_complete dim lf full_dg stk : forall names fs c g g', List.length fs = List.length names ->
  save_components dim lf full_dg stk c (combine names fs) g = Ok g' -> Forall complete fs.
Proof.
  induction names as [|n names IH]; intros [|f fs] c g g' Hl E; try discriminate; constructor.
  - cbn in E. destruct f as [f|]; [|discriminate]. apply obind_ok in E as (g1 & E & _). exists f. split; auto. eapply save_domain_complete; eauto.
  - cbn in E. destruct f as [f|]; [|discriminate]. apply obind_ok in E as (g1 & _ & E).
    destruct lf; [apply oassert_ok in E as (_ & E)|]; apply (IH fs (S c) g1 g'); auto; cbn in Hl; lia.
Qed.

Lemma save_coords_complete dim rank component lf full_dg stk names fs file : save_coords dim rank component lf full_dg stk names fs = Ok (Some file) ->
  component = true /\ rank = 0 /\ List.length fs = List.length names /\ Forall complete fs.
Proof.
  intros E. unfold save_coords in E. apply oassert_ok in E as (Hc & E). destruct (Nat.eqb_spec rank 0); [|discriminate].
  apply oassert_ok in E as (Hl & E). apply Nat.eqb_eq in Hl. apply obind_ok in E as (g & _ & E). apply obind_ok in E as (g' & E & _).
  split; auto. split; auto. split; auto. eapply save_components_complete; eauto.
Qed.

(** In space the file does not depend on the memory. *)
Lemma transform3 p x : List.length p = 3 -> List.length x = 3 -> transform 3 p x = p.
Proof. intros Hp Hx. unfold transform. rewrite <- Hp, firstn_all. rewrite skipn_all2 by lia. apply app_nil_r. Qed.

Lemma coords_memory f np stk stk' s : (forall el qp, List.length (q_pos f el qp) = 3) -> (forall i, List.length (stk i) = 3) -> (forall i, List.length (stk' i) = 3) ->
  coords_matrix 3 f np stk s = coords_matrix 3 f np stk' s.
Proof.
  intros Hp H1 H2. unfold coords_matrix, ofor. generalize (repeat 0%R (List.length s * 3)). generalize (seq 0 (List.length s)).
  induction l as [|i l IH]; intros m; cbn [ofold]; auto. destruct (oread s i) as [e| |]; cbn [obind]; auto.
  rewrite !transform3 by auto. set (r := oguard _ _). destruct r; cbn [obind]; auto.
Qed.

Lemma save_components_memory lf full_dg stk stk' : (forall c i, List.length (stk c i) = 3) -> (forall c i, List.length (stk' c i) = 3) ->
  forall names fs c g, (forall f, In (Some f) fs -> forall el qp, List.length (q_pos f el qp) = 3) ->
  save_components 3 lf full_dg stk c (combine names fs) g = save_components 3 lf full_dg stk' c (combine names fs) g.
Proof.
  intros H1 H2. induction names as [|n names IH]; intros [|[f|] fs] c g Hf; cbn [combine save_components]; auto.
  assert (E : save_domain_coords 3 f (stk c) 0 g (n ++ "_integ0") = save_domain_coords 3 f (stk' c) 0 g (n ++ "_integ0")).
  { unfold save_domain_coords. destruct (_ =? 0)%nat; auto. f_equal. destruct (oread _ _) as [q| |]; cbn [obind]; auto.
    destruct (qi_rule q); auto. destruct (qi_samples q); auto. rewrite (coords_memory f n0 (stk c) (stk' c)); auto. apply Hf. left; auto. }
  rewrite E. generalize (save_domain_coords 3 f (stk' c) 0 g (n ++ "_integ0")%string). intros [g1| |]; cbn [obind]; auto. rewrite IH; auto. intros f' Hf'. apply Hf. right; auto.
Qed.

Lemma save_coords_memory rank component lf full_dg stk stk' names fs : (forall c i, List.length (stk c i) = 3) -> (forall c i, List.length (stk' c i) = 3) ->
  (forall f, In (Some f) fs -> forall el qp, List.length (q_pos f el qp) = 3) ->
  save_coords 3 rank component lf full_dg stk names fs = save_coords 3 rank component lf full_dg stk' names fs.
Proof.
  intros H1 H2 Hf. unfold save_coords. f_equal. destruct (rank =? 0)%nat; auto. f_equal. destruct (h5_create_attr _ _ _) as [g| |]; cbn [obind]; auto.
  rewrite (save_components_memory lf full_dg stk stk'); auto.
Qed.
