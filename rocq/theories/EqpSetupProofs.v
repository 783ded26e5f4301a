(** Proofs about the training system of hyper-reduction. *)
From Coq Require Import Reals List Bool Lia Arith ZArith Lra.
From Verif Require Import Outcome ListLemmas HdfModel LaBase BlockVec LinalgModel LinalgSpec LinalgProofs ItfModel ItfSpec EqpModel EqpSpec.
From Verif Require Import RomProofs RomBasisProofs RomOpProofs MbFlowProofs ItfProofs EqpProofs.
Import ListNotations.
Local Open Scope nat_scope.

(** ** Filling a matrix *)

Definition shape (rr cc : nat) (G : rmat) : Prop := rm_wf G /\ rm_r G = rr /\ rm_c G = cc.

Lemma fold_fill {A} rr cc (f : rmat -> A -> outcome rmat) (D : A -> nat -> nat -> bool) (F : nat -> nat -> R) (l : list A) :
  (forall a G, In a l -> shape rr cc G -> exists G', f G a = Ok G' /\ shape rr cc G' /\
     forall r c, r < rr -> c < cc -> rget G' r c = if D a r c then F r c else rget G r c) ->
  forall G, shape rr cc G -> exists G', ofold f l G = Ok G' /\ shape rr cc G' /\
     forall r c, r < rr -> c < cc -> rget G' r c = if existsb (fun a => D a r c) l then F r c else rget G r c.
Proof.
  induction l as [|a l IH]; intros H G W; cbn [ofold existsb].
  - exists G. auto.
  - destruct (H a G (or_introl eq_refl) W) as (G1 & E1 & W1 & V1). rewrite E1. cbn [obind].
    destruct (IH (fun b G Hb => H b G (or_intror Hb)) G1 W1) as (G2 & E2 & W2 & V2). exists G2. split; [auto|]. split; [auto|].
    intros r c Hr Hc. rewrite V2, V1 by auto. destruct (D a r c), (existsb (fun a => D a r c) l); reflexivity.
Qed.

Lemma existsb_seq (p : nat -> bool) a n k : (forall i, a <= i < a + n -> (p i = true <-> i = k)) -> existsb p (seq a n) = (a <=? k) && (k <? a + n).
Proof.
  intros H. apply eq_true_iff_eq. rewrite existsb_exists, andb_true_iff, Nat.leb_le, Nat.ltb_lt. split.
  - intros (i & Hi & Hp). apply in_seq in Hi. apply H in Hp; lia.
  - intros Hk. exists k. split; [apply in_seq; lia|]. apply H; auto.
Qed.

(** ** Columns of one element *)

Lemma col_view_ok B j off n : dm_wf B -> j < dm_w B -> off + n <= dm_h B -> exists v, col_view B j off n = Ok v /\ List.length v = n /\
  forall r, r < n -> vnth v r = mode B off j r.
Proof.
  intros W Hj Ho. unfold col_view, dm_wf in *. assert (H : j * dm_h B + off + n <= List.length (dm_buf B)) by nia.
  rewrite (proj2 (Nat.leb_le _ _) H). cbn [oguard]. eexists. split; [reflexivity|]. split; [rewrite firstn_length, skipn_length; lia|].
  intros r Hr. unfold mode, mget, vnth. rewrite <- (firstn_skipn (j * dm_h B + off) (dm_buf B)) at 2. rewrite app_nth2; rewrite firstn_length, Nat.min_l; try lia.
  rewrite <- (firstn_skipn n (skipn (j * dm_h B + off) (dm_buf B))) at 2. rewrite app_nth1.
  - f_equal. lia.
  - rewrite firstn_length, skipn_length. lia.
Qed.

Lemma dot_comm n u v : dot n u v = dot n v u.
Proof. unfold dot. apply rsum_ext. intros. ring. Qed.

Lemma get_sub_on x (v : nat -> R) n ds : List.length x = n -> (forall d, In d ds -> dofn d < n) -> (forall r, r < n -> vnth x r = v r) ->
  get_sub x ds = Ok (on_dofs v ds).
Proof. intros L H V. apply (get_sub_ok x v ds); intros; [rewrite L|apply V; rewrite <- L]; auto. Qed.

Lemma on_dofs_len v ds : List.length (on_dofs v ds) = List.length ds.
Proof. apply map_length. Qed.

Lemma on_dofs_ext v v' ds : (forall d, In d ds -> v (dofn d) = v' (dofn d)) -> on_dofs v ds = on_dofs v' ds.
Proof. intros H. apply map_ext_in. intros d Hd. rewrite H; auto. Qed.

(** The rows of element [eidx] and the columns from [col0] on are set. *)
Definition hit (nqe eidx nb col0 r c : nat) : bool :=
  ((eidx * nqe <=? r) && (r <? eidx * nqe + nqe)) && ((col0 <=? c) && (c <? col0 + nb)).

Lemma fill_cols_ok rr cc G B boff vsize ds quads nqe nb col0 eidx : shape rr cc G -> dm_wf B -> nb <= dm_w B -> boff + vsize <= dm_h B ->
  (forall d, In d ds -> dofn d < vsize) -> List.length quads = nqe -> (forall q, In q quads -> List.length q = List.length ds) ->
  eidx * nqe + nqe <= rr -> col0 + nb <= cc ->
  exists G', fill_cols G B boff vsize ds quads nqe nb col0 eidx = Ok G' /\ shape rr cc G' /\ forall r c, r < rr -> c < cc ->
    rget G' r c = if hit nqe eidx nb col0 r c then dot (List.length ds) (nth (r - eidx * nqe) quads []) (on_dofs (mode B boff (c - col0)) ds) else rget G r c.
Proof.
  intros W WB Hnb Hb Hd Lq Hq Hr Hc. unfold fill_cols, ofor.
  set (F := fun r c => dot (List.length ds) (nth (r - eidx * nqe) quads []) (on_dofs (mode B boff (c - col0)) ds)).
  match goal with |- context[ofold ?f _ _] => destruct (fold_fill rr cc f (fun j r c => ((eidx * nqe <=? r) && (r <? eidx * nqe + nqe)) && (c =? j + col0)) F (seq 0 nb)) with (G := G) as (G' & E & W' & V) end; auto.
  - intros j G1 Hj W1. apply in_seq in Hj. destruct (col_view_ok B j boff vsize) as (v & Ev & Lv & Vv); auto; [lia|]. rw_bind Ev.
    rewrite (get_sub_on v (mode B boff j) vsize) by auto. cbn [obind].
    rewrite (omap_map_ok _ (fun m => dot (List.length ds) (nth m quads []) (on_dofs (mode B boff j) ds))).
    2:{ intros m Hm. apply in_seq in Hm. pose proof (oread_nth quads m [] ltac:(lia)) as E0. rw_bind E0.
        rewrite on_dofs_len, Hq by (apply nth_In; lia). rewrite Nat.eqb_refl. reflexivity. }
    cbn [obind].
    match goal with |- context[ofold ?f (seq 0 nqe) _] => destruct (fold_fill rr cc f (fun m r c => (r =? m + eidx * nqe) && (c =? j + col0)) F (seq 0 nqe)) with (G := G1) as (G2 & E2 & W2 & V2) end; auto.
    + intros m G3 Hm W3. apply in_seq in Hm. rewrite (oread_nth _ m 0%R) by (rewrite map_length, seq_length; lia). cbn [obind].
      destruct W3 as (W3 & R3 & C3). destruct (rm_set_ok G3 (m + eidx * nqe) (j + col0) (nth m (map (fun m => dot (List.length ds) (nth m quads []) (on_dofs (mode B boff j) ds)) (seq 0 nqe)) 0%R)) as (G4 & E4 & W4 & R4 & C4 & _ & S4 & O4); [auto|lia|lia|].
      exists G4. split; [exact E4|]. split; [split; [auto|]; split; congruence|]. intros r c Hr' Hc'.
      destruct (Nat.eqb_spec r (m + eidx * nqe)); destruct (Nat.eqb_spec c (j + col0)); cbn [andb]; try (apply O4; [lia|lia|congruence]).
      subst r c. rewrite S4. unfold F. rewrite nth_map_seq by lia. replace (m + eidx * nqe - eidx * nqe) with m by lia. replace (j + col0 - col0) with j by lia. reflexivity.
    + exists G2. split; [exact E2|]. split; [auto|]. intros r c Hr' Hc'. rewrite V2 by auto.
      destruct (Nat.eqb_spec c (j + col0)) as [Ec|Ec].
      * destruct (Nat.leb_spec (eidx * nqe) r).
        -- rewrite (existsb_seq _ 0 nqe (r - eidx * nqe)).
           ++ destruct (Nat.ltb_spec (r - eidx * nqe) (0 + nqe)), (Nat.ltb_spec r (eidx * nqe + nqe)); cbn [andb Nat.leb]; auto; lia.
           ++ intros i _. rewrite andb_true_r, Nat.eqb_eq. lia.
        -- cbn [andb]. destruct (existsb _ _) eqn:Q; auto. apply existsb_exists in Q. destruct Q as (i & _ & Q). rewrite andb_true_r, Nat.eqb_eq in Q. lia.
      * rewrite andb_false_r. destruct (existsb _ _) eqn:Q; auto. apply existsb_exists in Q. destruct Q as (i & _ & Q). rewrite andb_false_r in Q. discriminate.
  - exists G'. split; [exact E|]. split; [auto|]. intros r c Hr' Hc'. rewrite V by auto. unfold hit.
    destruct ((eidx * nqe <=? r) && (r <? eidx * nqe + nqe)); cbn [andb].
    + destruct (Nat.leb_spec col0 c).
      * rewrite (existsb_seq _ 0 nb (c - col0)).
        -- destruct (Nat.ltb_spec (c - col0) (0 + nb)), (Nat.ltb_spec c (col0 + nb)); cbn [andb Nat.leb]; auto; lia.
        -- intros i _. rewrite Nat.eqb_eq. lia.
      * cbn [andb]. destruct (existsb _ _) eqn:Q; auto. apply existsb_exists in Q. destruct Q as (i & _ & Q). rewrite Nat.eqb_eq in Q. lia.
    + destruct (existsb _ _) eqn:Q; auto. apply existsb_exists in Q. destruct Q as (i & _ & Q). discriminate.
Qed.

(** ** The loop of one process *)

Lemma snap_column snap vsize i : rm_wf snap -> vsize <= rm_r snap -> i < rm_c snap ->
  omap (fun k => rm_get snap k i) (seq 0 vsize) = Ok (map (fun k => rget snap k i) (seq 0 vsize)).
Proof.
  intros W Hv Hi. apply omap_map_ok. intros k Hk. apply in_seq in Hk. unfold rm_get, rget. rewrite oread_vnth; auto.
  apply rm_index_in; auto. lia.
Qed.

(** Element [e] hits its rows. *)
Lemma hit_div nqe e r : 0 < nqe -> (e * nqe <=? r) && (r <? e * nqe + nqe) = true <-> r / nqe = e.
Proof.
  intros Hq. rewrite andb_true_iff, Nat.leb_le, Nat.ltb_lt. split.
  - intros (H1 & H2). symmetry. apply (Nat.div_unique r nqe e (r - e * nqe)); lia.
  - intros <-. pose proof (Nat.div_mod r nqe ltac:(lia)). pose proof (Nat.mod_upper_bound r nqe ltac:(lia)). lia.
Qed.

Section Rank.
  Context (nqe vsize : nat) (st : sites) (ids : list nat) (B : dmat) (snap : rmat) (sf : nat -> site).
  Context (WB : dm_wf B) (HB : vsize <= dm_h B) (WS : rm_wf snap) (HS : vsize <= rm_r snap).
  Context (Hs : forall e, e < List.length ids -> at_site st (nth e ids 0) (sf e) /\ site_ok vsize (sf e)).

  Definition entry (e m i j : nat) : R := form_at (sf e) m 1 (fun k => rget snap k i) (mode B 0 j).

  Lemma setup_rank_ok e0 e1 G : e0 <= e1 <= List.length ids -> shape ((e1 - e0) * nqe) (dm_w B * rm_c snap) G ->
    exists G', setup_rank nqe st ids B vsize snap e0 e1 G = Ok G' /\ shape ((e1 - e0) * nqe) (dm_w B * rm_c snap) G' /\
      forall e m i j, e < e1 - e0 -> m < nqe -> i < rm_c snap -> j < dm_w B ->
        rget G' (e * nqe + m) (i * dm_w B + j) = entry (e0 + e) m i j.
  Proof.
    intros He W. set (NB := dm_w B) in *. set (rr := (e1 - e0) * nqe) in *. set (cc := NB * rm_c snap) in *.
    set (F := fun r c => entry (e0 + r / nqe) (r mod nqe) (c / NB) (c mod NB)).
    unfold setup_rank, ofor.
    match goal with |- context[ofold ?f _ _] => destruct (fold_fill rr cc f (fun i r c => (i * NB <=? c) && (c <? i * NB + NB)) F (seq 0 (rm_c snap))) with (G := G) as (G' & E & W' & V) end; auto.
    - intros i G1 Hi W1. apply in_seq in Hi. rewrite snap_column by (auto; lia). cbn [obind]. unfold oforr.
      match goal with |- context[ofold ?f _ _] => destruct (fold_fill rr cc f (fun e r c => hit nqe (e - e0) NB (i * NB) r c) F (seq e0 (e1 - e0))) with (G := G1) as (G2 & E2 & W2 & V2) end; auto.
      + intros e G3 Hei W3. apply in_seq in Hei. destruct (Hs e ltac:(lia)) as (A & (D & P1 & P2 & P3)).
        rewrite (oread_nth ids e 0) by lia. cbn [obind]. unfold oread. unfold at_site in A. rewrite A. cbn [obind].
        rewrite (get_sub_on _ (fun k => rget snap k i) vsize).
        2:{ rewrite map_length, seq_length; auto. } 2:{ auto. } 2:{ intros r Hr. unfold vnth. apply nth_map_seq; auto. }
        cbn [obind]. set (x := st_pre (sf e) (on_dofs (fun k => rget snap k i) (st_dofs (sf e)))).
        set (quads := map (fun m => st_post (sf e) (st_quad (sf e) (st_fe (sf e)) m 1 x)) (seq 0 nqe)).
        assert (Lx : List.length x = List.length (st_dofs (sf e))) by (apply P1, on_dofs_len).
        destruct (fill_cols_ok rr cc G3 B 0 vsize (st_dofs (sf e)) quads nqe NB (i * NB) (e - e0)) as (G4 & E4 & W4 & V4); auto.
        * unfold quads. rewrite map_length, seq_length. auto.
        * intros q Hq. apply in_map_iff in Hq. destruct Hq as (m & <- & _). apply P2, P3. auto.
        * unfold rr. nia.
        * unfold cc. nia.
        * exists G4. split; [exact E4|]. split; [auto|]. intros r c Hr Hc. rewrite V4 by auto. destruct (hit nqe (e - e0) NB (i * NB) r c) eqn:Hh; auto.
          unfold hit in Hh. apply andb_true_iff in Hh. destruct Hh as (H1 & H2). assert (Hq : 0 < nqe) by (unfold rr in Hr; nia).
          assert (HN : 0 < NB) by (unfold cc in Hc; nia). apply hit_div in H1; auto. apply hit_div in H2; auto.
          unfold F, entry, form_at. rewrite H1, H2. replace (e0 + (e - e0)) with e by lia.
          assert (Em : r - (e - e0) * nqe = r mod nqe) by (rewrite (Nat.mod_eq r nqe), H1 by lia; lia).
          assert (Ej : c - i * NB = c mod NB) by (rewrite (Nat.mod_eq c NB), H2 by lia; lia).
          rewrite Em, Ej. unfold quads. rewrite nth_map_seq by (apply Nat.mod_upper_bound; lia). reflexivity.
      + exists G2. split; [exact E2|]. split; [auto|]. intros r c Hr Hc. rewrite V2 by auto. assert (Hq : 0 < nqe) by (unfold rr in Hr; nia).
        destruct ((i * NB <=? c) && (c <? i * NB + NB)) eqn:Q.
        * rewrite (existsb_seq _ e0 (e1 - e0) (e0 + r / nqe)).
          -- assert (r / nqe < e1 - e0) by (apply Nat.div_lt_upper_bound; [lia|unfold rr in Hr; lia]).
             rewrite (proj2 (Nat.leb_le _ _)), (proj2 (Nat.ltb_lt _ _)) by lia. reflexivity.
          -- intros e Hei. unfold hit. rewrite Q, andb_true_r, hit_div by auto. lia.
        * destruct (existsb _ _) eqn:Q'; auto. apply existsb_exists in Q'. destruct Q' as (e & _ & Q'). unfold hit in Q'. rewrite Q, andb_false_r in Q'. discriminate.
    - exists G'. split; [exact E|]. split; [auto|]. intros e m i j Hei Hm Hi Hj. rewrite V.
      2:{ unfold rr. apply lin_lt; auto. } 2:{ unfold cc. rewrite (Nat.mul_comm NB). apply lin_lt; auto. }
      rewrite (existsb_seq _ 0 (rm_c snap) i).
      + cbn [Nat.leb andb]. rewrite (proj2 (Nat.ltb_lt _ _)) by lia. unfold F. rewrite !lin_div, !lin_mod by auto. reflexivity.
      + intros k _. rewrite hit_div by lia. rewrite lin_div by auto. intuition.
  Qed.
End Rank.

(** ** Weights *)

Lemma fom_weights_ok ne nqe w_el junk : nqe <= List.length w_el -> List.length junk = ne * nqe ->
  exists w, fom_weights ne nqe w_el junk = Ok w /\ List.length w = ne * nqe /\ forall e m, e < ne -> m < nqe -> vnth w (e * nqe + m) = vnth w_el m.
Proof.
  intros Lw Lj. unfold fom_weights.
  match goal with |- context[ofor ne ?f _] => destruct (ofor_inv ne f (fun i (w : vec) => List.length w = ne * nqe /\
    forall e m, e < i -> m < nqe -> vnth w (e * nqe + m) = vnth w_el m) junk) as (w & E & L & V) end.
  - split; [auto|]. intros; lia.
  - intros i w Hi (L & V).
    match goal with |- context[ofor nqe ?f _] => destruct (ofor_inv nqe f (fun j (w' : vec) => List.length w' = ne * nqe /\
      (forall e m, e < i -> m < nqe -> vnth w' (e * nqe + m) = vnth w_el m) /\ forall m, m < j -> vnth w' (i * nqe + m) = vnth w_el m) w) as (w' & E' & L' & V' & U') end.
    + split; [auto|]. split; [auto|]. intros; lia.
    + intros j w' Hj (L' & V' & U'). rewrite oread_vnth by lia. cbn [obind]. pose proof (lin_lt i j ne nqe Hi Hj) as Lt.
      assert (Lt' : j + i * nqe < List.length w') by (eapply Nat.lt_le_trans; [|apply Nat.eq_le_incl; symmetry; exact L']; lia).
      rewrite owrite_vec by exact Lt'. eexists. split; [reflexivity|]. rewrite upd_length. split; [auto|]. split.
      * intros e m He Hm. rewrite vnth_upd_ne; auto. intros Q. assert (Q' : i * nqe + j = e * nqe + m) by lia. apply lin_inj in Q'; auto. lia.
      * intros m Hm. destruct (Nat.eq_dec m j) as [->|N].
        -- rewrite (Nat.add_comm (i * nqe) j), vnth_upd_eq by exact Lt'. reflexivity.
        -- rewrite vnth_upd_ne by lia. apply U'. lia.
    + exists w'. split; [exact E'|]. split; [auto|]. intros e m He Hm. destruct (Nat.eq_dec e i) as [->|N]; [auto|apply V'; auto; lia].
  - exists w. auto.
Qed.

(** ** Sums *)

Lemma rsum_tile ne nqe f : rsum (ne * nqe) f = rsum ne (fun e => rsum nqe (fun m => f (e * nqe + m))).
Proof.
  induction ne; auto. rewrite Nat.mul_succ_l, rsum_split, IHne. cbn [rsum]. reflexivity.
Qed.

Lemma rsum_offsets g split : forall a, fold_right Rplus 0%R (map (fun r => rsum (nth r split 0) (fun e => g (a + list_sum (firstn r split) + e))) (seq 0 (List.length split)))
  = rsum (list_sum split) (fun e => g (a + e)).
Proof.
  induction split as [|n split IH]; intros a; auto. cbn [List.length seq map fold_right nth firstn].
  change (list_sum (n :: split)) with (n + list_sum split). rewrite rsum_split. f_equal.
  - apply rsum_ext. intros e _. cbn. f_equal. lia.
  - rewrite <- seq_shift, map_map. erewrite rsum_ext; [|intros e _; rewrite Nat.add_assoc; reflexivity]. rewrite <- IH. f_equal. apply map_ext.
    intros r. cbn [nth firstn]. apply rsum_ext. intros e _. f_equal.
    change (list_sum (n :: firstn r split)) with (n + list_sum (firstn r split)). lia.
Qed.

Lemma fold_map_ext {A} (f g : A -> R) l : (forall a, In a l -> f a = g a) -> fold_right Rplus 0%R (map f l) = fold_right Rplus 0%R (map g l).
Proof. intros H. f_equal. apply map_ext_in. auto. Qed.

(** ** The whole system *)

Section System.
  Context (nqe : nat) (w_el : vec) (ids : nat) (split : list nat) (jg jw : nat -> vec) (NB ns : nat).
  Context (setup : nat -> nat -> rmat -> outcome rmat) (ent : nat -> nat -> nat -> nat -> R).
  Context (Lw : nqe <= List.length w_el) (Sp : list_sum split = ids).
  Context (Jg : forall r, r < List.length split -> List.length (jg r) = nth r split 0 * nqe * (NB * ns)).
  Context (Jw : forall r, r < List.length split -> List.length (jw r) = nth r split 0 * nqe).
  Context (Hset : forall e0 e1 G, e0 <= e1 <= ids -> shape ((e1 - e0) * nqe) (NB * ns) G ->
    exists G', setup e0 e1 G = Ok G' /\ shape ((e1 - e0) * nqe) (NB * ns) G' /\
      forall e m i j, e < e1 - e0 -> m < nqe -> i < ns -> j < NB -> rget G' (e * nqe + m) (i * NB + j) = ent (e0 + e) m i j).

  Definition system_body (r : nat) : outcome (rmat * vec) :=
    let off := rank_offsets split in
    let* e0 := oread off r in
    let* e1 := oread off (r + 1) in
    let* ne := oread split r in
    let* G := setup e0 e1 (RMat (ne * nqe) (NB * ns) true (jg r)) in
    let* w := fom_weights ne nqe w_el (jw r) in
    Ok (G, w).

  Lemma system_ok : exists parts, omap system_body (seq 0 (List.length split)) = Ok parts /\ List.length parts = List.length split /\
    (forall r, r < List.length split -> let G := fst (nth r parts (RMat 0 0 true [], [])) in
      shape (nth r split 0 * nqe) (NB * ns) G /\
      forall e m i j, e < nth r split 0 -> m < nqe -> i < ns -> j < NB -> rget G (e * nqe + m) (i * NB + j) = ent (list_sum (firstn r split) + e) m i j) /\
    List.length (transpose_mult (NB * ns) parts) = NB * ns /\
    forall i j, i < ns -> j < NB -> vnth (transpose_mult (NB * ns) parts) (i * NB + j) =
      rsum ids (fun e => rsum nqe (fun m => (ent e m i j * vnth w_el m)%R)).
  Proof.
    destruct (omap_seq_exists system_body (List.length split) (fun r p =>
       shape (nth r split 0 * nqe) (NB * ns) (fst p) /\
       (forall e m i j, e < nth r split 0 -> m < nqe -> i < ns -> j < NB -> rget (fst p) (e * nqe + m) (i * NB + j) = ent (list_sum (firstn r split) + e) m i j) /\
       forall e m, e < nth r split 0 -> m < nqe -> vnth (snd p) (e * nqe + m) = vnth w_el m) (RMat 0 0 true [], [])) as (parts & E & L & V).
    { intros r Hr. unfold system_body. pose proof (rank_offsets_ok split) as (Lo & _ & _).
      rewrite (oread_nth (rank_offsets split) r 0), (oread_nth (rank_offsets split) (r + 1) 0), (oread_nth split r 0) by lia. cbn [obind].
      rewrite !rank_offsets_nth by lia. rewrite Nat.add_1_r, list_sum_firstn_S by auto.
      pose proof (list_sum_firstn_le split (S r)) as Le. rewrite list_sum_firstn_S in Le by auto.
      set (e0 := list_sum (firstn r split)) in *. set (ne := nth r split 0) in *.
      assert (Q : e0 + ne - e0 = ne) by lia.
      destruct (Hset e0 (e0 + ne) (RMat (ne * nqe) (NB * ns) true (jg r))) as (G & EG & WG & VG); [lia| |].
      { rewrite Q. split; [|auto]. unfold rm_wf. cbn [rm_buf rm_r rm_c]. apply Jg; auto. }
      rewrite EG. cbn [obind]. destruct (fom_weights_ok ne nqe w_el (jw r) Lw (Jw r Hr)) as (w & Ew & Lw' & Vw). rw_bind Ew.
      eexists. split; [reflexivity|]. cbn [fst snd]. rewrite Q in *. split; [auto|]. split; [|auto]. intros. apply VG; auto. }
    exists parts. split; [auto|]. split; [auto|]. split; [intros r Hr; destruct (V r Hr) as (V1 & V2 & _); auto|].
    unfold transpose_mult. split; [rewrite map_length, seq_length; auto|]. intros i j Hi Hj.
    assert (Hc : i * NB + j < NB * ns) by (rewrite (Nat.mul_comm NB); apply lin_lt; auto).
    unfold vnth at 1. rewrite nth_map_seq by auto. cbn [Nat.add].
    rewrite <- Sp. pose proof (rsum_offsets (fun e => rsum nqe (fun m => (ent e m i j * vnth w_el m)%R)) split 0) as Ro. cbn [Nat.add] in Ro. rewrite <- Ro. clear Ro.
    assert (Ep : parts = map (fun r => nth r parts (RMat 0 0 true [], [])) (seq 0 (List.length split))).
    { rewrite <- L. symmetry. apply (nth_ext _ _ (RMat 0 0 true [], []) (RMat 0 0 true [], [])); [rewrite map_length, seq_length; auto|].
      intros k Hk. rewrite map_length, seq_length in Hk. rewrite nth_map_seq by auto. reflexivity. }
    rewrite Ep at 1. rewrite map_map. apply fold_map_ext. intros r Hr. apply in_seq in Hr. destruct (V r ltac:(lia)) as ((V1 & V2 & V3) & V4 & V5).
    rewrite V2, rsum_tile. apply rsum_ext. intros e He. apply rsum_ext. intros m Hm. rewrite V5 by auto. cbn [Nat.add].
    rewrite <- V4 by auto. reflexivity.
  Qed.
End System.

(** ** Basis *)

Lemma set_basis_ok n vsize B off : dm_wf B -> dm_w B = n -> vsize + off <= dm_h B ->
  exists M, set_basis n vsize B off = Ok M /\ dm_wf M /\ dm_h M = vsize /\ dm_w M = n /\ forall i j, i < vsize -> j < n -> mget M i j = mget B (off + i) j.
Proof.
  intros W Hw Hh. unfold set_basis. rewrite (proj2 (Nat.eqb_eq _ _) Hw), (proj2 (Nat.leb_le _ _) Hh). cbn [oassert].
  destruct (dm_fill vsize n (fun M i j => let* x := dm_get B (off + i) j in dm_put M i j x) (fun i j _ => mget B (off + i) j) (DMat vsize n (repeat 0%R (vsize * n)))) as (M & E & R); auto.
  - unfold dm_wf. cbn [dm_buf dm_h dm_w]. rewrite repeat_length. lia.
  - intros m' i j Hi Hj _ _ _. unfold dm_get. rewrite oread_vnth; [reflexivity|]. apply mget_in; auto; lia.
  - exists M. auto.
Qed.

Lemma set_basis_inv n vsize B off M : dm_wf B -> set_basis n vsize B off = Ok M ->
  dm_w B = n /\ vsize + off <= dm_h B /\ dm_wf M /\ dm_h M = vsize /\ dm_w M = n /\ forall i j, i < vsize -> j < n -> mget M i j = mget B (off + i) j.
Proof.
  intros W E. assert (H : dm_w B = n /\ vsize + off <= dm_h B).
  { unfold set_basis in E. apply oassert_ok in E. destruct E as (H1 & E). apply oassert_ok in E. destruct E as (H2 & _).
    apply Nat.eqb_eq in H1. apply Nat.leb_le in H2. auto. }
  destruct H as (H1 & H2). destruct (set_basis_ok n vsize B off W H1 H2) as (M' & E' & Q). rewrite E in E'. injection E' as <-. auto.
Qed.

Definition pick_site (st : sites) (ids : list nat) (e : nat) : site :=
  match nth (nth e ids 0) st None with Some s => s | None => Site [] 0 (fun x => x) (fun x => x) (fun m => m) (fun _ _ _ x => x) (fun _ _ _ _ => DMat 0 0 []) end.

Lemma pick_site_ok st ids e s : at_site st (nth e ids 0) s -> pick_site st ids e = s.
Proof.
  unfold at_site, pick_site. intros H. assert (L : nth (nth e ids 0) st None = Some s) by (apply nth_error_nth; auto). rewrite L. auto.
Qed.

Lemma form_at_ext vsize s m w v v' phi phi' : site_ok vsize s -> (forall k, k < vsize -> v k = v' k) -> (forall k, k < vsize -> phi k = phi' k) ->
  form_at s m w v phi = form_at s m w v' phi'.
Proof.
  intros (D & _) Hv Hp. unfold form_at. rewrite (on_dofs_ext v v'), (on_dofs_ext phi phi'); auto.
Qed.

Definition site_split (split : list nat) (r e : nat) : Prop := r < List.length split /\ list_sum (firstn r split) <= e < list_sum (firstn r split) + nth r split 0.

Theorem setup_system_ok nqe w_el st ids B0 off n vsize B snap split jg jw :
  dm_wf B0 -> set_basis n vsize B0 off = Ok B -> rm_wf snap -> vsize <= rm_r snap -> nqe <= List.length w_el -> list_sum split = List.length ids ->
  (forall id, In id ids -> exists s, at_site st id s /\ site_ok vsize s) ->
  (forall r, r < List.length split -> List.length (jg r) = nth r split 0 * nqe * (n * rm_c snap)) ->
  (forall r, r < List.length split -> List.length (jw r) = nth r split 0 * nqe) ->
  exists Gs rhs, setup_system nqe w_el st ids B vsize snap split jg jw = Ok (Gs, rhs) /\
    List.length Gs = List.length split /\ List.length rhs = n * rm_c snap /\
    (forall r, r < List.length split -> shape (nth r split 0 * nqe) (n * rm_c snap) (nth r Gs (RMat 0 0 true []))) /\
    (forall r e m i j s, site_split split r e -> at_site st (nth e ids 0) s -> m < nqe -> i < rm_c snap -> j < n ->
      rget (nth r Gs (RMat 0 0 true [])) ((e - list_sum (firstn r split)) * nqe + m) (i * n + j) = form_at s m 1 (fun k => rget snap k i) (mode B0 off j)) /\
    forall i j, i < rm_c snap -> j < n -> vnth rhs (i * n + j) =
      rsum (List.length ids) (fun e => rsum nqe (fun m => (form_at (pick_site st ids e) m 1 (fun k => rget snap k i) (mode B0 off j) * vnth w_el m)%R)).
Proof.
  intros W0 EB WS HS Lw Sp Hs Jg Jw. apply set_basis_inv in EB; auto. destruct EB as (H1 & H2 & WB & Hh & Hw & VB).
  assert (Hsf : forall e, e < List.length ids -> at_site st (nth e ids 0) (pick_site st ids e) /\ site_ok vsize (pick_site st ids e)).
  { intros e He. destruct (Hs (nth e ids 0)) as (s & A & K); [apply nth_In; auto|]. rewrite (pick_site_ok _ _ _ _ A). auto. }
  assert (Em : forall e m i j, e < List.length ids -> j < n -> entry B snap (pick_site st ids) e m i j = form_at (pick_site st ids e) m 1 (fun k => rget snap k i) (mode B0 off j)).
  { intros e m i j He Hj. unfold entry. apply (form_at_ext vsize); [apply Hsf; auto|auto|]. intros k Hk. unfold mode. cbn [Nat.add]. apply VB; auto. }
  destruct (system_ok nqe w_el (List.length ids) split jg jw n (rm_c snap) (setup_rank nqe st ids B vsize snap) (entry B snap (pick_site st ids)) Lw Sp Jg Jw) as (parts & E & L & V & Lr & Vr).
  { intros e0 e1 G He W. rewrite <- Hw in *. apply (setup_rank_ok nqe vsize st ids B snap (pick_site st ids) WB); auto. lia. }
  unfold setup_system. rewrite (proj2 (Nat.leb_le _ _) HS), rank_offsets_last, Sp, Nat.eqb_refl, Hw. cbn [oassert].
  unfold system_body in E. rw_bind E. eexists _, _. split; [reflexivity|]. split; [rewrite map_length; auto|]. split; [auto|].
  assert (Ef : forall r, nth r (map fst parts) (RMat 0 0 true []) = fst (nth r parts (RMat 0 0 true [], []))) by (intros r; apply (map_nth fst parts (RMat 0 0 true [], []))).
  split; [intros r Hr; rewrite Ef; apply V; auto|]. split.
  - intros r e m i j s (Hr & He) A Hm Hi Hj. rewrite Ef. destruct (V r Hr) as (_ & V'). rewrite V' by (auto; lia).
    pose proof (list_sum_firstn_le split (S r)) as Le. rewrite list_sum_firstn_S in Le by auto.
    replace (list_sum (firstn r split) + (e - list_sum (firstn r split))) with e by lia.
    rewrite Em by (auto; lia). rewrite (pick_site_ok _ _ _ _ A). reflexivity.
  - intros i j Hi Hj. rewrite Vr by auto. apply rsum_ext. intros e He. apply rsum_ext. intros m Hm. rewrite Em by auto. reflexivity.
Qed.

(** ** Reference ports *)

Section RankItf.
  Context (nqe : nat) (st : list (option isite)) (B1 B2 : dmat) (o1 o2 n1 n2 : nat) (snap1 snap2 : rmat) (pairs : list (nat * nat)) (sf : nat -> isite).
  Context (WB1 : dm_wf B1) (WB2 : dm_wf B2) (HB1 : o1 + n1 <= dm_h B1) (HB2 : o2 + n2 <= dm_h B2).
  Context (WS1 : rm_wf snap1) (WS2 : rm_wf snap2) (HS1 : n1 <= rm_r snap1) (HS2 : n2 <= rm_r snap2).
  Context (Hp : forall p, In p pairs -> fst p < rm_c snap1 /\ snd p < rm_c snap2).
  Context (Hs : forall e, e < List.length st -> nth_error st e = Some (Some (sf e)) /\ isite_ok n1 n2 (sf e)).

  Definition ientry (e m i j : nat) : R :=
    let p := nth i pairs (0, 0) in
    let v1 := fun k => rget snap1 k (fst p) in
    let v2 := fun k => rget snap2 k (snd p) in
    if j <? dm_w B1 then iform_at (sf e) m 1 v1 v2 true (mode B1 o1 j) else iform_at (sf e) m 1 v1 v2 false (mode B2 o2 (j - dm_w B1)).

  Lemma setup_rank_itf_ok e0 e1 G : let NB := dm_w B1 + dm_w B2 in e0 <= e1 <= List.length st ->
    shape ((e1 - e0) * nqe) (NB * List.length pairs) G ->
    exists G', setup_rank_itf nqe st B1 B2 o1 o2 n1 n2 snap1 snap2 pairs e0 e1 G = Ok G' /\ shape ((e1 - e0) * nqe) (NB * List.length pairs) G' /\
      forall e m i j, e < e1 - e0 -> m < nqe -> i < List.length pairs -> j < NB -> rget G' (e * nqe + m) (i * NB + j) = ientry (e0 + e) m i j.
  Proof.
    intros NB He W. set (rr := (e1 - e0) * nqe) in *. set (cc := NB * List.length pairs) in *.
    set (F := fun r c => ientry (e0 + r / nqe) (r mod nqe) (c / NB) (c mod NB)).
    unfold setup_rank_itf, ofor. fold NB.
    match goal with |- context[ofold ?f _ _] => destruct (fold_fill rr cc f (fun i r c => (i * NB <=? c) && (c <? i * NB + NB)) F (seq 0 (List.length pairs))) with (G := G) as (G' & E & W' & V) end; auto.
    - intros i G1 Hi W1. apply in_seq in Hi. rewrite (oread_nth pairs i (0, 0)) by lia. cbn [obind]. destruct (Hp (nth i pairs (0, 0))) as (P1 & P2); [apply nth_In; lia|].
      rewrite !snap_column by auto. cbn [obind]. unfold oforr.
      match goal with |- context[ofold ?f _ _] => destruct (fold_fill rr cc f (fun e r c => hit nqe (e - e0) NB (i * NB) r c) F (seq e0 (e1 - e0))) with (G := G1) as (G2 & E2 & W2 & V2) end; auto.
      + intros e G3 Hei W3. apply in_seq in Hei. destruct (Hs e ltac:(lia)) as (A & (D1 & D2 & Q)).
        unfold oread. rewrite A. cbn [obind].
        set (v1 := fun k => rget snap1 k (fst (nth i pairs (0, 0)))). set (v2 := fun k => rget snap2 k (snd (nth i pairs (0, 0)))).
        rewrite (get_sub_on _ v1 n1); [|rewrite map_length, seq_length; auto|auto|intros r Hr; unfold vnth; apply nth_map_seq; auto].
        rewrite (get_sub_on _ v2 n2); [|rewrite map_length, seq_length; auto|auto|intros r Hr; unfold vnth; apply nth_map_seq; auto].
        cbn [obind]. set (q := fun m => is_quad (sf e) m 1 (on_dofs v1 (is_d1 (sf e))) (on_dofs v2 (is_d2 (sf e)))).
        destruct (fill_cols_ok rr cc G3 B1 o1 n1 (is_d1 (sf e)) (map (fun m => fst (q m)) (seq 0 nqe)) nqe (dm_w B1) (i * NB) (e - e0)) as (G4 & E4 & W4 & V4); auto.
        { rewrite map_length, seq_length. auto. }
        { intros x Hx. apply in_map_iff in Hx. destruct Hx as (m & <- & _). apply Q; apply on_dofs_len. }
        { unfold rr. nia. } { unfold cc, NB. nia. }
        unfold q in E4 at 1. rw_bind E4.
        destruct (fill_cols_ok rr cc G4 B2 o2 n2 (is_d2 (sf e)) (map (fun m => snd (q m)) (seq 0 nqe)) nqe (dm_w B2) (dm_w B1 + i * NB) (e - e0)) as (G5 & E5 & W5 & V5); auto.
        { rewrite map_length, seq_length. auto. }
        { intros x Hx. apply in_map_iff in Hx. destruct Hx as (m & <- & _). apply Q; apply on_dofs_len. }
        { unfold rr. nia. } { unfold cc, NB. nia. }
        exists G5. split; [exact E5|]. split; [auto|]. intros r c Hr Hc. rewrite V5, V4 by auto. unfold hit.
        destruct (((e - e0) * nqe <=? r) && (r <? (e - e0) * nqe + nqe)) eqn:H1; cbn [andb]; auto.
        assert (Hq : 0 < nqe) by (unfold rr in Hr; nia). assert (HN : 0 < NB) by (unfold cc in Hc; nia).
        apply hit_div in H1; auto.
        assert (Em : r - (e - e0) * nqe = r mod nqe) by (rewrite (Nat.mod_eq r nqe), H1 by lia; lia).
        destruct ((i * NB <=? c) && (c <? i * NB + NB)) eqn:H2.
        * pose proof H2 as H3. apply hit_div in H3; auto. apply andb_true_iff in H2. rewrite Nat.leb_le, Nat.ltb_lt in H2.
          assert (Ej : c mod NB = c - i * NB) by (rewrite (Nat.mod_eq c NB), H3 by lia; lia).
          unfold F, ientry. fold v1 v2. rewrite H1, H3, Ej, Em. replace (e0 + (e - e0)) with e by lia. fold v1 v2.
          destruct (Nat.leb_spec (dm_w B1 + i * NB) c), (Nat.ltb_spec (c - i * NB) (dm_w B1)); try lia.
          -- rewrite (proj2 (Nat.ltb_lt c (dm_w B1 + i * NB + dm_w B2))) by (unfold NB in *; lia). cbn [andb].
             rewrite nth_map_seq by (apply Nat.mod_upper_bound; lia). unfold iform_at, q. cbn [Nat.add]. do 2 f_equal. f_equal. lia.
          -- cbn [andb]. rewrite (proj2 (Nat.leb_le (i * NB) c)), (proj2 (Nat.ltb_lt c (i * NB + dm_w B1))) by lia. cbn [andb].
             rewrite nth_map_seq by (apply Nat.mod_upper_bound; lia). reflexivity.
        * assert (K : ~ (i * NB <= c < i * NB + NB)) by (intros K; rewrite (proj2 (Nat.leb_le _ _)), (proj2 (Nat.ltb_lt _ _)) in H2 by lia; discriminate).
          destruct (Nat.leb_spec (dm_w B1 + i * NB) c), (Nat.ltb_spec c (dm_w B1 + i * NB + dm_w B2)), (Nat.leb_spec (i * NB) c), (Nat.ltb_spec c (i * NB + dm_w B1)); cbn [andb]; auto; unfold NB in *; lia.
      + exists G2. split; [exact E2|]. split; [auto|]. intros r c Hr Hc. rewrite V2 by auto. assert (Hq : 0 < nqe) by (unfold rr in Hr; nia).
        destruct ((i * NB <=? c) && (c <? i * NB + NB)) eqn:Q.
        * rewrite (existsb_seq _ e0 (e1 - e0) (e0 + r / nqe)).
          -- assert (r / nqe < e1 - e0) by (apply Nat.div_lt_upper_bound; [lia|unfold rr in Hr; lia]).
             rewrite (proj2 (Nat.leb_le _ _)), (proj2 (Nat.ltb_lt _ _)) by lia. reflexivity.
          -- intros e Hei. unfold hit. rewrite Q, andb_true_r, hit_div by auto. lia.
        * destruct (existsb _ _) eqn:Q'; auto. apply existsb_exists in Q'. destruct Q' as (e & _ & Q'). unfold hit in Q'. rewrite Q, andb_false_r in Q'. discriminate.
    - exists G'. split; [exact E|]. split; [auto|]. intros e m i j Hei Hm Hi Hj. rewrite V.
      2:{ unfold rr. apply lin_lt; auto. } 2:{ unfold cc. rewrite (Nat.mul_comm NB). apply lin_lt; auto. }
      rewrite (existsb_seq _ 0 (List.length pairs) i).
      + cbn [Nat.leb andb]. rewrite (proj2 (Nat.ltb_lt _ _)) by lia. unfold F. rewrite !lin_div, !lin_mod by auto. reflexivity.
      + intros k _. rewrite hit_div by lia. rewrite lin_div by auto. intuition.
  Qed.
End RankItf.

Definition pick_isite (st : list (option isite)) (e : nat) : isite := match nth e st None with Some s => s | None => ISite [] [] (fun _ _ _ _ => ([], [])) (fun _ _ _ _ _ _ => DMat 0 0 []) end.

Theorem setup_system_itf_ok nqe w_el st B1 B2 o1 o2 n1 n2 snap1 snap2 pairs split jg jw : let NB := dm_w B1 + dm_w B2 in
  dm_wf B1 -> dm_wf B2 -> o1 + n1 <= dm_h B1 -> o2 + n2 <= dm_h B2 ->
  rm_wf snap1 -> rm_wf snap2 -> n1 <= rm_r snap1 -> n2 <= rm_r snap2 ->
  (forall p, In p pairs -> fst p < rm_c snap1 /\ snd p < rm_c snap2) ->
  nqe <= List.length w_el -> list_sum split = List.length st ->
  (forall so, In so st -> exists s, so = Some s /\ isite_ok n1 n2 s) ->
  (forall r, r < List.length split -> List.length (jg r) = nth r split 0 * nqe * (NB * List.length pairs)) ->
  (forall r, r < List.length split -> List.length (jw r) = nth r split 0 * nqe) ->
  exists Gs rhs, setup_system_itf nqe w_el st B1 B2 o1 o2 n1 n2 snap1 snap2 pairs split jg jw = Ok (Gs, rhs) /\
    List.length Gs = List.length split /\ List.length rhs = NB * List.length pairs /\
    (forall r, r < List.length split -> shape (nth r split 0 * nqe) (NB * List.length pairs) (nth r Gs (RMat 0 0 true []))) /\
    (forall r e m i j, site_split split r e -> m < nqe -> i < List.length pairs -> j < NB ->
      rget (nth r Gs (RMat 0 0 true [])) ((e - list_sum (firstn r split)) * nqe + m) (i * NB + j) = ientry B1 B2 o1 o2 snap1 snap2 pairs (pick_isite st) e m i j) /\
    forall i j, i < List.length pairs -> j < NB -> vnth rhs (i * NB + j) =
      rsum (List.length st) (fun e => rsum nqe (fun m => (ientry B1 B2 o1 o2 snap1 snap2 pairs (pick_isite st) e m i j * vnth w_el m)%R)).
Proof.
  intros NB W1 W2 H1 H2 S1 S2 R1 R2 Hp Lw Sp Hs Jg Jw.
  assert (Hsf : forall e, e < List.length st -> nth_error st e = Some (Some (pick_isite st e)) /\ isite_ok n1 n2 (pick_isite st e)).
  { intros e He. destruct (Hs (nth e st None)) as (s & A & K); [apply nth_In; auto|]. unfold pick_isite. rewrite A. split; auto.
    rewrite (nth_error_nth' st None He), A. reflexivity. }
  destruct (system_ok nqe w_el (List.length st) split jg jw NB (List.length pairs) (setup_rank_itf nqe st B1 B2 o1 o2 n1 n2 snap1 snap2 pairs)
     (ientry B1 B2 o1 o2 snap1 snap2 pairs (pick_isite st)) Lw Sp Jg Jw) as (parts & E & L & V & Lr & Vr).
  { intros e0 e1 G He W. apply (setup_rank_itf_ok nqe st B1 B2 o1 o2 n1 n2 snap1 snap2 pairs (pick_isite st)); auto. }
  unfold setup_system_itf. rewrite (proj2 (Nat.leb_le _ _) R1), (proj2 (Nat.leb_le _ _) R2), rank_offsets_last, Sp, Nat.eqb_refl. cbn [oassert].
  unfold system_body in E. fold NB. rw_bind E. eexists _, _. split; [reflexivity|]. split; [rewrite map_length; auto|]. split; [auto|].
  assert (Ef : forall r, nth r (map fst parts) (RMat 0 0 true []) = fst (nth r parts (RMat 0 0 true [], []))) by (intros r; apply (map_nth fst parts (RMat 0 0 true [], []))).
  split; [intros r Hr; rewrite Ef; apply V; auto|]. split; [|auto].
  intros r e m i j (Hr & He) Hm Hi Hj. rewrite Ef. destruct (V r Hr) as (_ & V'). rewrite V' by (auto; lia). f_equal. lia.
Qed.
