(** Proofs: products with selected rows. *)
From Coq Require Import Reals List Bool ZArith Lia Lra Arith.
From Verif Require Import Outcome ListLemmas LaBase LinalgModel LinalgSpec LinalgProofs.
Import ListNotations.
Local Open Scope R_scope.

(** ** Row checks *)

Lemma array_min_spec l m : array_min l = Ok m -> In m l /\ forall z, In z l -> (m <= z)%Z.
Proof.
  destruct l as [|z t]; [discriminate|]. cbn [array_min]. intros [= <-]. revert z.
  induction t as [|y t IH]; intros z; cbn [fold_left].
  - split; [left; auto|]. intros x [->|[]]. lia.
  - destruct (Z.ltb_spec y z) as [L|L].
    + destruct (IH y) as (I1 & I2). split; [right; auto|]. intros x [->|Hx]; [|apply I2; auto].
      specialize (I2 y (or_introl eq_refl)). lia.
    + destruct (IH z) as (I1 & I2). split.
      * destruct I1 as [E|I1]; [left; auto|right; right; auto].
      * intros x [->|[->|Hx]]; [apply I2; left; auto| |apply I2; right; auto].
        specialize (I2 z (or_introl eq_refl)). lia.
Qed.

Lemma array_max_spec l m : array_max l = Ok m -> In m l /\ forall z, In z l -> (z <= m)%Z.
Proof.
  destruct l as [|z t]; [discriminate|]. cbn [array_max]. intros [= <-]. revert z.
  induction t as [|y t IH]; intros z; cbn [fold_left].
  - split; [left; auto|]. intros x [->|[]]. lia.
  - destruct (Z.ltb_spec z y) as [L|L].
    + destruct (IH y) as (I1 & I2). split; [right; auto|]. intros x [->|Hx]; [|apply I2; auto].
      specialize (I2 y (or_introl eq_refl)). lia.
    + destruct (IH z) as (I1 & I2). split.
      * destruct I1 as [E|I1]; [left; auto|right; right; auto].
      * intros x [->|[->|Hx]]; [apply I2; left; auto| |apply I2; right; auto].
        specialize (I2 z (or_introl eq_refl)). lia.
Qed.

Lemma rows_check_pass {A} h rows (k : outcome A) : rows_of h rows -> rows_check h rows k = k.
Proof.
  intros (N & H). unfold rows_check. destruct rows as [|z t]; [congruence|].
  destruct (array_min (z :: t)) as [m| |] eqn:E1; try discriminate. apply array_min_spec in E1. cbn [obind].
  destruct (array_max (z :: t)) as [m'| |] eqn:E2; try discriminate. apply array_max_spec in E2. cbn [obind].
  destruct E1 as (I1 & _), E2 as (I2 & _). apply H in I1, I2.
  replace ((0 <=? m)%Z && (m <? Z.of_nat h)%Z)%bool with true by (symmetry; rewrite andb_true_iff, Z.leb_le, Z.ltb_lt; lia).
  replace ((0 <=? m')%Z && (m' <? Z.of_nat h)%Z)%bool with true by (symmetry; rewrite andb_true_iff, Z.leb_le, Z.ltb_lt; lia).
  auto.
Qed.

Lemma rows_check_fail {A} h rows (k : outcome A) : rows <> [] -> ~ rows_of h rows -> rows_check h rows k = Abort.
Proof.
  intros N H. unfold rows_check. destruct rows as [|z t]; [congruence|].
  destruct (array_min (z :: t)) as [m| |] eqn:E1; try discriminate. apply array_min_spec in E1. cbn [obind].
  destruct (array_max (z :: t)) as [m'| |] eqn:E2; try discriminate. apply array_max_spec in E2. cbn [obind].
  destruct ((0 <=? m)%Z && (m <? Z.of_nat h)%Z)%bool eqn:B1; [|auto].
  destruct ((0 <=? m')%Z && (m' <? Z.of_nat h)%Z)%bool eqn:B2; [|auto].
  exfalso. apply H. split; auto. intros x Hx. apply andb_true_iff in B1, B2. rewrite Z.leb_le, Z.ltb_lt in B1, B2.
  destruct E1 as (_ & E1), E2 as (_ & E2). specialize (E1 x Hx). specialize (E2 x Hx). lia.
Qed.

Lemma rows_check_ok {A} h rows (k : outcome A) a : rows_check h rows k = Ok a -> rows_of h rows /\ k = Ok a.
Proof.
  intros H. destruct rows as [|z t]; [discriminate|].
  assert (D : rows_of h (z :: t) \/ ~ rows_of h (z :: t)).
  { destruct (forallb (fun x => (0 <=? x)%Z && (x <? Z.of_nat h)%Z)%bool (z :: t)) eqn:B.
    - left. split; [discriminate|]. rewrite forallb_forall in B. intros x Hx. apply B in Hx.
      apply andb_true_iff in Hx. rewrite Z.leb_le, Z.ltb_lt in Hx. lia.
    - right. intros (_ & R). assert (forallb (fun x => (0 <=? x)%Z && (x <? Z.of_nat h)%Z)%bool (z :: t) = true); [|congruence].
      apply forallb_forall. intros x Hx. apply R in Hx. rewrite andb_true_iff, Z.leb_le, Z.ltb_lt. lia. }
  destruct D as [D|D].
  - rewrite rows_check_pass in H by auto. auto.
  - rewrite rows_check_fail in H by (auto; discriminate). discriminate.
Qed.

Lemma row_read_ok m rows off c r : dm_wf m -> rows_of (dm_h m) rows -> (c < dm_w m)%nat -> (r < length rows)%nat ->
  off = (c * dm_h m)%nat -> row_read (dm_buf m) off rows r = Ok (sel m rows r c).
Proof.
  intros W (_ & H) Hc Hr ->. unfold row_read.
  assert (B : (0 <= nth r rows 0%Z < Z.of_nat (dm_h m))%Z) by (apply H, nth_In; auto).
  assert (E : oread rows r = Ok (nth r rows 0%Z)) by (unfold oread; rewrite (nth_error_nth' rows 0%Z); auto).
  rw_bind E. unfold zread.
  destruct (Z.ltb_spec (Z.of_nat (c * dm_h m) + nth r rows 0%Z) 0); [lia|].
  unfold sel, mget. rewrite oread_vnth.
  - f_equal. f_equal. lia.
  - pose proof (mget_in m (Z.to_nat (nth r rows 0%Z)) c W). lia.
Qed.

(** ** Products *)

Lemma mult_sub_matrix_ok m rows x junk : dm_wf m -> rows_of (dm_h m) rows -> length x = dm_w m -> (0 < dm_w m)%nat ->
  length junk = length rows ->
  exists y, mult_sub_matrix m rows x junk = Ok y /\ length y = length rows /\
    forall r, (r < length rows)%nat -> vnth y r = rsum (dm_w m) (fun c => sel m rows r c * vnth x c).
Proof.
  intros W Hr Lx Hw Lj. unfold mult_sub_matrix. destruct (Nat.eqb_spec (length x) (dm_w m)); [|congruence].
  cbn [oassert]. rewrite rows_check_pass by auto. rewrite oread_vnth by lia. cbn [obind].
  destruct (ofor_upd (length rows) (fun y r => let* a := row_read (dm_buf m) 0 rows r in owrite y r (a * vnth x 0))
     (fun r _ => sel m rows r 0 * vnth x 0) junk) as (y0 & E0 & L0 & V0); [lia| |].
  { intros y' i Hi L'. rewrite (row_read_ok m rows 0 0) by auto. cbn [obind]. rewrite owrite_vec by lia. auto. }
  rw_bind E0.
  match goal with |- context[oforr 1 (dm_w m) ?f _] =>
    destruct (oforr_inv 1 (dm_w m) f (fun c s => snd s = (c * dm_h m)%nat /\ length (fst s) = length rows /\
      forall r, (r < length rows)%nat -> vnth (fst s) r = rsum c (fun c => sel m rows r c * vnth x c)) (y0, dm_h m))
      as ([y off] & E & Ho & L & V) end; [lia| | |].
  - cbn [fst snd]. split; [lia|]. split; [lia|]. intros r Hr'. rewrite V0. destruct (Nat.ltb_spec r (length rows)); [|lia]. simpl. ring.
  - intros c [y off] Hc (Ho & Ly & Vy). cbn [fst snd] in *. rewrite oread_vnth by lia. cbn [obind].
    destruct (ofor_upd (length rows) (fun y r => let* a := row_read (dm_buf m) off rows r in
       let* yr := oread y r in owrite y r (yr + a * vnth x c)) (fun r v => v + sel m rows r c * vnth x c) y) as (y1 & E1 & L1 & V1); [lia| |].
    { intros y' i Hi L'. rewrite (row_read_ok m rows off c) by (auto; lia). cbn [obind]. rewrite oread_vnth by lia. cbn [obind].
      rewrite owrite_vec by lia. auto. }
    rw_bind E1. eexists; split; [reflexivity|]. cbn [fst snd]. split; [lia|]. split; [lia|].
    intros r Hr'. rewrite V1. destruct (Nat.ltb_spec r (length rows)); [|lia]. rewrite Vy by auto. simpl. auto.
  - cbn [fst snd] in *. rw_bind E. exists y. auto.
Qed.

Lemma sub_matrix_loop_ok acc m rows x y : dm_wf m -> rows_of (dm_h m) rows -> length x = length rows -> length y = dm_w m ->
  exists z, sub_matrix_loop acc m rows x y = Ok z /\ length z = dm_w m /\
    forall c, (c < dm_w m)%nat ->
      vnth z c = (if acc then vnth y c else 0) + rsum (length rows) (fun r => sel m rows r c * vnth x r).
Proof.
  intros W Hr Lx Ly. unfold sub_matrix_loop.
  match goal with |- context[ofor (dm_w m) ?f _] =>
    destruct (ofor_inv (dm_w m) f (fun c s => snd s = (c * dm_h m)%nat /\ length (fst s) = dm_w m /\
      forall c', (c' < dm_w m)%nat -> vnth (fst s) c' = if (c' <? c)%nat then
        (if acc then vnth y c' else 0) + rsum (length rows) (fun r => sel m rows r c' * vnth x r) else vnth y c') (y, 0%nat))
      as ([z off] & E & Ho & L & V) end.
  - cbn [fst snd]. split; [lia|]. split; [lia|]. intros c Hc. auto.
  - intros c [z off] Hc (Ho & Lz & Vz). cbn [fst snd] in *.
    rewrite (ofor_acc (length rows) _ (fun r => sel m rows r c * vnth x r)).
    2:{ intros s r Hr'. rewrite (row_read_ok m rows off c) by auto. cbn [obind]. rewrite oread_vnth by lia. auto. }
    cbn [obind]. rewrite oread_vnth by lia. cbn [obind]. rewrite owrite_vec by lia. cbn [obind].
    eexists; split; [reflexivity|]. cbn [fst snd]. split; [lia|]. split; [rewrite upd_length; auto|].
    intros c' Hc'. destruct (Nat.eq_dec c' c) as [->|N].
    + rewrite vnth_upd_eq by lia. destruct (Nat.ltb_spec c (S c)); [|lia]. rewrite Rplus_0_l.
      destruct acc; [|ring]. rewrite Vz by auto. rewrite Nat.ltb_irrefl. auto.
    + rewrite vnth_upd_ne, Vz by auto. destruct (Nat.ltb_spec c' c), (Nat.ltb_spec c' (S c)); auto; lia.
  - cbn [fst snd] in *. rw_bind E. exists z. split; auto. split; auto. intros c Hc. rewrite V by auto.
    destruct (Nat.ltb_spec c (dm_w m)); [auto|lia].
Qed.

Lemma add_mult_transpose_sub_ok m rows x y : dm_wf m -> rows_of (dm_h m) rows -> length x = length rows -> length y = dm_w m ->
  exists z, add_mult_transpose_sub m rows x y = Ok z /\ length z = dm_w m /\
    forall c, (c < dm_w m)%nat -> vnth z c = vnth y c + rsum (length rows) (fun r => sel m rows r c * vnth x r).
Proof.
  intros W Hr Lx Ly. unfold add_mult_transpose_sub. rewrite Lx, Ly, !Nat.eqb_refl. cbn [oassert].
  rewrite rows_check_pass by auto. apply (sub_matrix_loop_ok true); auto.
Qed.

Lemma mult_transpose_sub_ok m rows x y : dm_wf m -> rows_of (dm_h m) rows -> length x = length rows -> length y = dm_w m ->
  exists z, mult_transpose_sub m rows x y = Ok z /\ length z = dm_w m /\
    forall c, (c < dm_w m)%nat -> vnth z c = rsum (length rows) (fun r => sel m rows r c * vnth x r).
Proof.
  intros W Hr Lx Ly. unfold mult_transpose_sub. rewrite Lx, Ly, !Nat.eqb_refl. cbn [oassert].
  rewrite rows_check_pass by auto. destruct (sub_matrix_loop_ok false m rows x y) as (z & E & L & V); auto.
  exists z. split; auto. split; auto. intros c Hc. rewrite V by auto. ring.
Qed.

(** Inputs that do not fit stop the program. *)
Lemma mult_sub_matrix_rejects m rows x junk : rows <> [] -> (length x <> dm_w m \/ ~ rows_of (dm_h m) rows) ->
  mult_sub_matrix m rows x junk = Abort.
Proof.
  intros N H. unfold mult_sub_matrix. destruct (Nat.eqb_spec (length x) (dm_w m)); [|auto]. cbn [oassert].
  destruct H as [H|H]; [congruence|]. apply rows_check_fail; auto.
Qed.

Lemma add_mult_transpose_sub_rejects m rows x y : rows <> [] ->
  (length x <> length rows \/ length y <> dm_w m \/ ~ rows_of (dm_h m) rows) -> add_mult_transpose_sub m rows x y = Abort.
Proof.
  intros N H. unfold add_mult_transpose_sub. destruct (Nat.eqb_spec (length x) (length rows)); [|auto].
  destruct (Nat.eqb_spec (length y) (dm_w m)); [|auto]. cbn [oassert].
  destruct H as [H|[H|H]]; try congruence. apply rows_check_fail; auto.
Qed.

Lemma mult_transpose_sub_rejects m rows x y : rows <> [] ->
  (length x <> length rows \/ length y <> dm_w m \/ ~ rows_of (dm_h m) rows) -> mult_transpose_sub m rows x y = Abort.
Proof.
  intros N H. unfold mult_transpose_sub. destruct (Nat.eqb_spec (length x) (length rows)); [|auto].
  destruct (Nat.eqb_spec (length y) (dm_w m)); [|auto]. cbn [oassert].
  destruct H as [H|[H|H]]; try congruence. apply rows_check_fail; auto.
Qed.

(** ** The extracted matrix *)

Lemma flat_map_cols_length {A} (f : nat -> nat -> A) h a n :
  length (flat_map (fun c => map (fun r => f r c) (seq 0 h)) (seq a n)) = (n * h)%nat.
Proof. revert a. induction n; intros a; simpl; auto. rewrite app_length, map_length, seq_length, IHn. auto. Qed.

Lemma flat_map_cols_nth (f : nat -> nat -> R) h n i j a : (i < h)%nat -> (j < n)%nat ->
  nth (i + j * h) (flat_map (fun c => map (fun r => f r c) (seq 0 h)) (seq a n)) 0 = f i (a + j)%nat.
Proof.
  revert a j. induction n; intros a j Hi Hj; [lia|]. cbn [seq flat_map].
  destruct j.
  - rewrite Nat.mul_0_l, !Nat.add_0_r. rewrite app_nth1 by (rewrite map_length, seq_length; auto).
    rewrite (nth_map_seq (fun r => f r a)); auto.
  - rewrite app_nth2 by (rewrite map_length, seq_length; nia). rewrite map_length, seq_length.
    replace (i + S j * h - h)%nat with (i + j * h)%nat by nia. rewrite IHn by lia. f_equal. lia.
Qed.

Lemma extract_ok m rows : dm_wf (extract m rows) /\ dm_h (extract m rows) = length rows /\ dm_w (extract m rows) = dm_w m /\
  forall r c, (r < length rows)%nat -> (c < dm_w m)%nat -> mget (extract m rows) r c = sel m rows r c.
Proof.
  split; [|split; [|split]]; auto.
  - unfold dm_wf, extract. cbn [dm_h dm_w dm_buf]. rewrite flat_map_cols_length. lia.
  - intros r c Hr Hc. unfold mget, vnth, extract. cbn [dm_h dm_buf].
    rewrite (flat_map_cols_nth (fun r c => sel m rows r c)); auto.
Qed.

(** ** Columns *)

Lemma dm_putcol_ok m j v : dm_wf m -> (j < dm_w m)%nat -> length v = dm_h m ->
  dm_wf (dm_putcol m j v) /\ dm_h (dm_putcol m j v) = dm_h m /\ dm_w (dm_putcol m j v) = dm_w m /\
  forall i c, (i < dm_h m)%nat -> (c < dm_w m)%nat -> mget (dm_putcol m j v) i c = if (c =? j)%nat then vnth v i else mget m i c.
Proof.
  intros W Hj L. unfold dm_wf in W. assert (B : (j * dm_h m + dm_h m <= length (dm_buf m))%nat) by nia.
  assert (Lf : length (firstn (j * dm_h m) (dm_buf m)) = (j * dm_h m)%nat) by (rewrite firstn_length; lia).
  split; [|split; [|split]]; auto.
  - unfold dm_wf, dm_putcol. cbn [dm_h dm_w dm_buf]. rewrite !app_length, Lf, skipn_length, L. lia.
  - intros i c Hi Hc. unfold mget, vnth, dm_putcol. cbn [dm_h dm_buf].
    destruct (Nat.eqb_spec c j) as [->|N].
    + rewrite app_nth2 by lia. rewrite Lf, app_nth1 by lia. f_equal. lia.
    + assert (E : dm_buf m = firstn (j * dm_h m) (dm_buf m) ++ firstn (dm_h m) (skipn (j * dm_h m) (dm_buf m)) ++ skipn (j * dm_h m + dm_h m) (dm_buf m)).
      { rewrite <- (firstn_skipn (j * dm_h m) (dm_buf m)) at 1. f_equal.
        rewrite <- (firstn_skipn (dm_h m) (skipn (j * dm_h m) (dm_buf m))) at 1. f_equal.
        rewrite skipn_plus. auto. }
      rewrite E at 3. destruct (Nat.lt_ge_cases c j) as [Lt|Ge].
      * rewrite !app_nth1 by (rewrite Lf; nia). auto.
      * assert (j < c)%nat by lia. rewrite app_nth2 by (rewrite Lf; nia). rewrite app_nth2 by (rewrite Lf, L; nia).
        rewrite (app_nth2 (firstn (j * dm_h m) (dm_buf m))) by (rewrite Lf; nia).
        rewrite (app_nth2 (firstn (dm_h m) _)) by (rewrite Lf, firstn_length, skipn_length; nia).
        rewrite Lf, L, firstn_length, skipn_length, Nat.min_l by nia. auto.
Qed.

(** ** Triple product with selected rows *)

Lemma add_sub_rtap_ok L rrows A P prows M junk : dm_wf L -> dm_wf A -> dm_wf P -> dm_wf M ->
  rows_of (dm_h L) rrows -> rows_of (dm_h P) prows -> dm_h A = length rrows -> dm_w A = length prows ->
  length junk = length rrows ->
  exists m, add_sub_rtap L rrows A P prows M junk = Ok m /\ dm_wf m /\ dm_h m = dm_w L /\ dm_w m = dm_w P /\
    forall i j, (i < dm_w L)%nat -> (j < dm_w P)%nat ->
      mget m i j = mget (dm_setsize M (dm_w L) (dm_w P)) i j +
        rap (length rrows) (length prows) (sel L rrows) (mget A) (sel P prows) i j.
Proof.
  intros WL WA WP WM HR HP E1 E2 Lj. unfold add_sub_rtap.
  rewrite E1, E2, !Nat.eqb_refl. cbn [oassert]. rewrite !rows_check_pass by auto.
  destruct (dm_setsize_wf M (dm_w L) (dm_w P) WM) as (W0 & H0 & H0').
  assert (Np : (0 < length prows)%nat) by (destruct HP as (N & _); destruct prows; [congruence|simpl; lia]).
  set (M0 := dm_setsize M (dm_w L) (dm_w P)) in *.
  match goal with |- context[ofor (dm_w P) ?f _] =>
    destruct (ofor_inv (dm_w P) f (fun j s => let '(m, tmp, offP) := s in
      dm_wf m /\ dm_h m = dm_w L /\ dm_w m = dm_w P /\ length tmp = length rrows /\ offP = (j * dm_h P)%nat /\
      forall i j', (i < dm_w L)%nat -> (j' < dm_w P)%nat -> mget m i j' = mget M0 i j' +
        if (j' <? j)%nat then rap (length rrows) (length prows) (sel L rrows) (mget A) (sel P prows) i j' else 0) (M0, junk, 0%nat))
      as (((m, tmp), offP) & E & H) end.
  - repeat (split; [auto; fail|]). intros i j' _ _. simpl. ring.
  - intros j ((m & tmp) & offP) Hj (Wm & Hh & Hw & Lt & Ho & V).
    rewrite (row_read_ok P prows offP j) by auto. cbn [obind].
    destruct (ofor_upd (length rrows) (fun tmp r => let* a := oread (dm_buf A) r in owrite tmp r (a * sel P prows 0 j))
       (fun r _ => mget A r 0 * sel P prows 0 j) tmp) as (t0 & Et0 & Lt0 & Vt0); [lia| |].
    { intros y' i Hi L'. pose proof (mget_in A i 0 WA) as B. rewrite oread_vnth by lia. cbn [obind]. rewrite owrite_vec by lia.
      unfold mget. rewrite Nat.mul_0_l, Nat.add_0_r. auto. }
    rw_bind Et0.
    match goal with |- context[oforr 1 (length prows) ?f _] =>
      destruct (oforr_inv 1 (length prows) f (fun c s => snd s = (c * length rrows)%nat /\ length (fst s) = length rrows /\
        forall r, (r < length rrows)%nat -> vnth (fst s) r = rsum c (fun c => mget A r c * sel P prows c j)) (t0, length rrows))
        as ([t1 off] & Et & Ho1 & Lt1 & Vt1) end; [lia| | |].
    + cbn [fst snd]. split; [lia|]. split; [lia|]. intros r Hr'. rewrite Vt0. destruct (Nat.ltb_spec r (length rrows)); [|lia]. simpl. ring.
    + intros c [y off] Hc (Ho1 & Ly & Vy). cbn [fst snd] in *. rewrite (row_read_ok P prows offP j) by (auto; lia). cbn [obind].
      destruct (ofor_upd (length rrows) (fun tmp r => let* a := oread (dm_buf A) (off + r) in
         let* t := oread tmp r in owrite tmp r (t + a * sel P prows c j)) (fun r v => v + mget A r c * sel P prows c j) y) as (y1 & Ey1 & L1 & V1); [lia| |].
      { intros y' i Hi L'. pose proof (mget_in A i c WA) as B. rewrite oread_vnth by (rewrite Ho1, <- E1; lia). cbn [obind].
        rewrite oread_vnth by lia. cbn [obind].
        rewrite owrite_vec by lia. unfold mget. rewrite Ho1, E1. do 5 f_equal. lia. }
      rw_bind Ey1. eexists; split; [reflexivity|]. cbn [fst snd]. split; [lia|]. split; [lia|].
      intros r Hr'. rewrite V1. destruct (Nat.ltb_spec r (length rrows)); [|lia]. rewrite Vy by auto. simpl. auto.
    + cbn [fst snd] in *. rw_bind Et. rewrite dm_colref_ok by (auto; lia). cbn [obind].
      destruct (add_mult_transpose_sub_ok L rrows t1 (dm_col m j)) as (z & Ez & Lz & Vz); auto.
      { rewrite dm_col_length. auto. }
      rw_bind Ez. eexists; split; [reflexivity|].
      destruct (dm_putcol_ok m j z) as (Wp & P1 & P2 & P3); auto; try lia.
      split; auto. split; [congruence|]. split; [congruence|]. split; [auto|]. split; [lia|].
      intros i j' Hi Hj'. rewrite P3 by lia. destruct (Nat.eqb_spec j' j) as [->|N].
      * rewrite Vz by auto. rewrite dm_col_nth, V by lia. rewrite Nat.ltb_irrefl. destruct (Nat.ltb_spec j (S j)); [|lia].
        rewrite Rplus_0_r. f_equal. unfold rap. apply rsum_ext. intros r Hr. rewrite Vt1 by auto. auto.
      * rewrite V by auto. destruct (Nat.ltb_spec j' j), (Nat.ltb_spec j' (S j)); auto; lia.
  - rw_bind E. destruct H as (Wm & Hh & Hw & _ & _ & V). exists m. split; auto. split; auto. split; auto. split; auto.
    intros i j Hi Hj. rewrite V by auto. destruct (Nat.ltb_spec j (dm_w P)); [auto|lia].
Qed.

Lemma dm_setsize_same m : dm_setsize m (dm_h m) (dm_w m) = m.
Proof. unfold dm_setsize. rewrite !Nat.eqb_refl. auto. Qed.

Lemma dm_setsize_fresh h w i j : (i < h)%nat -> (j < w)%nat -> mget (dm_setsize (DMat 0 0 []) h w) i j = 0.
Proof.
  intros Hi Hj. unfold dm_setsize. cbn [dm_h dm_w dm_buf length].
  destruct (Nat.eqb_spec 0 h); [lia|]. cbn [andb]. destruct (Nat.ltb_spec 0 (h * w)); [|nia].
  unfold mget, vnth. cbn [dm_h dm_buf]. apply nth_repeat.
Qed.

Lemma add_sub_rtap_sparse_full L rrows A P prows M junk : dm_wf L -> dm_wf A -> dm_wf P ->
  rows_of (dm_h L) rrows -> rows_of (dm_h P) prows -> dm_h A = length rrows -> dm_w A = length prows ->
  length junk = length rrows -> sm_h M = dm_w L -> sm_w M = dm_w P ->
  (sm_fin M = true -> forall i j, (i < dm_w L)%nat -> (j < dm_w P)%nat -> sm_has M i j = true) ->
  exists m, add_sub_rtap_sparse L rrows A P prows M junk = Ok m /\ sm_h m = dm_w L /\ sm_w m = dm_w P /\ sm_fin m = sm_fin M /\
    (sm_fin M = true -> forall i j, (i < dm_w L)%nat -> (j < dm_w P)%nat -> sm_has m i j = true) /\
    forall i j, (i < dm_w L)%nat -> (j < dm_w P)%nat ->
      sm_val m i j = sm_val M i j + rap (length rrows) (length prows) (sel L rrows) (mget A) (sel P prows) i j.
Proof.
  intros WL WA WP HR HP E1 E2 Lj S1 S2 Hp. unfold add_sub_rtap_sparse.
  destruct (add_sub_rtap_ok L rrows A P prows (DMat 0 0 []) junk) as (t & Et & Wt & T1 & T2 & Vt); auto.
  { unfold dm_wf. simpl. lia. }
  rw_bind Et. rewrite T1, T2, S1, S2, !Nat.eqb_refl. cbn [oassert].
  pose (D := fun (j i : nat) => rap (length rrows) (length prows) (sel L rrows) (mget A) (sel P prows) i j).
  assert (VD : forall i j, (i < dm_w L)%nat -> (j < dm_w P)%nat -> vnth (dm_buf t) (i + j * dm_w L) = D j i).
  { intros i j Hi Hj. specialize (Vt i j Hi Hj). unfold mget in Vt at 1. rewrite T1 in Vt. rewrite Vt, dm_setsize_fresh by auto. unfold D. ring. }
  set (good := fun m => sm_h m = dm_w L /\ sm_w m = dm_w P /\ sm_fin m = sm_fin M /\
    (sm_fin M = true -> forall i j, (i < dm_w L)%nat -> (j < dm_w P)%nat -> sm_has m i j = true)).
  match goal with |- context[ofor (dm_w P) ?f _] =>
    destruct (ofor_inv (dm_w P) f (fun j s => snd s = (j * dm_w L)%nat /\ good (fst s) /\
      forall i j', (i < dm_w L)%nat -> (j' < dm_w P)%nat -> sm_val (fst s) i j' = sm_val M i j' + if (j' <? j)%nat then D j' i else 0) (M, 0%nat))
      as ([s d] & E & H) end.
  - cbn [fst snd]. split; auto. split; [red; auto|]. intros i j' _ _. simpl. ring.
  - intros j [s d] Hj (Hd & G & V). cbn [fst snd] in *.
    match goal with |- context[ofor (dm_w L) ?f _] =>
      destruct (ofor_inv (dm_w L) f (fun i s => snd s = (i + j * dm_w L)%nat /\ good (fst s) /\
        forall i' j', (i' < dm_w L)%nat -> (j' < dm_w P)%nat -> sm_val (fst s) i' j' = sm_val M i' j' +
          if ((j' <? j) || ((j' =? j) && (i' <? i)))%nat%bool then D j' i' else 0) (s, d))
        as ([s1 d1] & E & H1) end.
    + cbn [fst snd]. split; [lia|]. split; auto. intros i' j' Hi' Hj'. rewrite V by auto.
      replace (i' <? 0)%nat with false by (symmetry; apply Nat.ltb_ge; lia). rewrite andb_false_r, orb_false_r. auto.
    + intros i [s1 d1] Hi (Hd1 & (G1 & G2 & G3 & G4) & V1). cbn [fst snd] in *.
      rewrite oread_vnth by (pose proof (mget_in t i j Wt); rewrite T1, T2 in *; lia). cbn [obind].
      rewrite Hd1, VD by auto. unfold sm_add. rewrite G1, G2.
      destruct (Nat.ltb_spec i (dm_w L)); [|lia]. destruct (Nat.ltb_spec j (dm_w P)); [|lia]. cbn [andb oguard].
      replace (negb (sm_fin s1) || sm_has s1 i j)%bool with true
        by (rewrite G3; destruct (sm_fin M); auto; rewrite G4; auto).
      cbn [oassert obind]. eexists; split; [reflexivity|]. cbn [fst snd]. split; [lia|]. split.
      * split; [auto|]. split; [auto|]. split; [auto|]. intros Hfin i' j' Hi' Hj'. unfold sm_has. cbn [sm_put sm_ent].
        destruct ((i' =? i) && (j' =? j))%nat%bool; auto. apply G4; auto.
      * intros i' j' Hi' Hj'. unfold sm_val at 1. cbn [sm_put sm_ent].
        destruct (Nat.eqb_spec i' i) as [->|Ni], (Nat.eqb_spec j' j) as [->|Nj]; cbn [andb].
        -- rewrite V1 by auto. rewrite Nat.eqb_refl, !Nat.ltb_irrefl. cbn [andb orb].
           destruct (Nat.ltb_spec i (S i)); [|lia]. cbn [orb andb]. ring.
        -- fold (sm_val s1 i j'). rewrite V1 by auto. destruct (Nat.eqb_spec j' j); [congruence|]. auto.
        -- fold (sm_val s1 i' j). rewrite V1 by auto. rewrite Nat.eqb_refl. cbn [andb].
           destruct (Nat.ltb_spec i' i), (Nat.ltb_spec i' (S i)); auto; lia.
        -- fold (sm_val s1 i' j'). rewrite V1 by auto. destruct (Nat.eqb_spec j' j); [congruence|]. auto.
    + destruct H1 as (Hd1 & G1 & V1). cbn [fst snd] in *. exists (s1, d1). split; [exact E|]. cbn [fst snd].
      split; [lia|]. split; auto. intros i' j' Hi' Hj'. rewrite V1 by auto.
      destruct (Nat.ltb_spec i' (dm_w L)); [|lia]. rewrite andb_true_r.
      replace ((j' <? j) || (j' =? j))%nat%bool with (j' <? S j)%nat; auto.
      apply eq_true_iff_eq. rewrite orb_true_iff, !Nat.ltb_lt, Nat.eqb_eq. lia.
  - cbn [fst snd] in *. destruct H as (_ & (G1 & G2 & G3 & G4) & V). rw_bind E. exists s. repeat (split; [auto; fail|]).
    intros i j Hi Hj. rewrite V by auto. destruct (Nat.ltb_spec j (dm_w P)); [auto|lia].
Qed.

Lemma add_sub_rtap_sparse_ok L rrows A P prows M junk : dm_wf L -> dm_wf A -> dm_wf P ->
  rows_of (dm_h L) rrows -> rows_of (dm_h P) prows -> dm_h A = length rrows -> dm_w A = length prows ->
  length junk = length rrows -> sm_h M = dm_w L -> sm_w M = dm_w P ->
  (sm_fin M = true -> forall i j, (i < dm_w L)%nat -> (j < dm_w P)%nat -> sm_has M i j = true) ->
  exists m, add_sub_rtap_sparse L rrows A P prows M junk = Ok m /\ sm_h m = dm_w L /\ sm_w m = dm_w P /\
    forall i j, (i < dm_w L)%nat -> (j < dm_w P)%nat ->
      sm_val m i j = sm_val M i j + rap (length rrows) (length prows) (sel L rrows) (mget A) (sel P prows) i j.
Proof.
  intros. destruct (add_sub_rtap_sparse_full L rrows A P prows M junk) as (m & E & H1' & H2' & _ & _ & V); auto. exists m. auto.
Qed.

(** ** ComputeCtAB *)

Lemma compute_ctab_ok A B C a jb jab : rm_wf B -> rm_wf C -> rm_dist B = true -> rm_dist C = true ->
  op_matrix A a -> rm_r C = op_h A -> rm_r B = op_w A -> length jb = rm_r B -> length jab = (op_h A * rm_c B)%nat ->
  exists m, compute_ctab A B C false jb jab = Ok m /\ rm_r m = rm_c C /\ rm_c m = rm_c B /\ rm_wf m /\ rm_dist m = false /\
    forall i j, (i < rm_c C)%nat -> (j < rm_c B)%nat ->
      rget m i j = rap (op_h A) (op_w A) (rget C) a (rget B) i j.
Proof.
  intros WB WC DB DC HA E1 E2 Lb Lab. unfold compute_ctab. rewrite DB, DC, E1, Nat.eqb_refl. cbn [negb andb oassert].
  match goal with |- context[ofor (rm_c B) ?f _] =>
    destruct (ofor_inv (rm_c B) f (fun k s => length (fst s) = rm_r B /\ rm_wf (snd s) /\ rm_r (snd s) = op_h A /\ rm_c (snd s) = rm_c B /\
      forall r c, (r < op_h A)%nat -> (c < k)%nat -> rget (snd s) r c = rsum (op_w A) (fun l => a r l * rget B l c))
      (jb, RMat (op_h A) (rm_c B) true jab))
      as ([bv ab] & E & H) end.
  - cbn [fst snd]. split; auto. split; [unfold rm_wf; cbn; auto|]. split; auto. split; auto. intros; lia.
  - intros k [bv ab] Hk (Lv & Wab & Ra & Ca & V). cbn [fst snd] in *.
    destruct (ofor_upd (rm_r B) (fun bv j => let* x := rm_get B j k in owrite bv j x) (fun j _ => rget B j k) bv) as (bv1 & Ebv & Lbv & Vbv); [lia| |].
    { intros y' i Hi L'. unfold rm_get. rewrite oread_vnth by (apply rm_index_in; auto). cbn [obind]. rewrite owrite_vec by lia. auto. }
    rw_bind Ebv. destruct (HA bv1) as (La & Va); [lia|].
    match goal with |- context[ofor (op_h A) ?f _] =>
      destruct (ofor_inv (op_h A) f (fun r ab' => rm_wf ab' /\ rm_r ab' = op_h A /\ rm_c ab' = rm_c B /\
        (forall r' c, (r' < op_h A)%nat -> (c < k)%nat -> rget ab' r' c = rget ab r' c) /\
        (forall r', (r' < r)%nat -> rget ab' r' k = vnth (op_mul A bv1) r')) ab) as (ab1 & Eab & W1 & R1 & C1 & O1 & V1) end.
    + split; auto. split; auto. split; auto. split; auto. intros; lia.
    + intros r ab' Hr (W' & R' & C' & O' & V'). rewrite oread_vnth by lia. cbn [obind].
      destruct (rm_set_ok ab' r k (vnth (op_mul A bv1) r) W') as (ab2 & Es & W2 & R2 & C2 & _ & V2 & O2); try lia.
      exists ab2. split; auto. split; auto. split; [lia|]. split; [lia|]. split.
      * intros r' c Hr' Hc. rewrite O2; [apply O'; auto|lia|lia|]. intros [= -> ->]. lia.
      * intros r' Hr'. destruct (Nat.eq_dec r' r) as [->|N]; [auto|]. rewrite O2; [apply V'; lia|lia|lia|]. intros [= ->]. lia.
    + rw_bind Eab. eexists; split; [reflexivity|]. cbn [fst snd]. split; [lia|]. split; auto. split; auto. split; auto.
      intros r c Hr Hc. destruct (Nat.eq_dec c k) as [->|N].
      * rewrite V1, Va by auto. apply rsum_ext. intros l Hl. rewrite Vbv. destruct (Nat.ltb_spec l (rm_r B)); [auto|lia].
      * rewrite O1 by lia. apply V; lia.
  - cbn [fst snd] in *. destruct H as (_ & Wab & Ra & Ca & V). rw_bind E. eexists; split; [reflexivity|].
    cbn [rm_r rm_c rm_dist]. split; auto. split; auto. split; [|split; auto].
    + unfold rm_wf. cbn [rm_buf rm_r rm_c].
      rewrite (flat_map_cols_length (fun j i => rsum (op_h A) (fun r => vnth (rm_buf C) (r * rm_c C + i) * vnth (rm_buf ab) (r * rm_c B + j)))). auto.
    + intros i j Hi Hj. unfold rget, vnth. cbn [rm_buf rm_c].
      rewrite Nat.add_comm.
      rewrite (flat_map_cols_nth (fun j i => rsum (op_h A) (fun r => vnth (rm_buf C) (r * rm_c C + i) * vnth (rm_buf ab) (r * rm_c B + j)))) by auto.
      unfold rap. simpl. apply rsum_ext. intros r Hr. f_equal. specialize (V r j Hr Hj). unfold rget in V at 1. rewrite Ca in V. exact V.
Qed.
