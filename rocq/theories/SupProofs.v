(** Proofs about supremizers. *)
From Coq Require Import Reals List Bool Lia Arith ZArith String Lra.
From Verif Require Import Outcome ListLemmas LaBase LinalgModel LinalgSpec LinalgProofs LinalgGsProofs BlockVec TagsModel RomModel RomSpec RomProofs
  RomBasisProofs RomStateProofs CompProofs BcProofs DriveReportProofs SupModel SupSpec.
Import ListNotations.
Local Open Scope nat_scope.

(** ** Numbers *)

Lemma look_up_find name d dict :
  look_up name d dict = match find (fun e => match fst e with Some n => String.eqb n name | None => false end) dict with
                        | Some (_, Some z) => z | _ => d end.
Proof.
  induction dict as [|[[n|] v] t IH]; cbn [look_up find fst]; auto. destruct (String.eqb n name); auto.
Qed.

Lemma vp_len s dim : vp_bases s dim -> List.length (rh_nb (rs_h s)) = rh_ncomp (rs_h s) * 2.
Proof. intros ((_ & (_ & _ & _ & _ & L) & _) & E1 & E2). rewrite L, E1, E2. reflexivity. Qed.

Lemma Forall2_len {A B} (P : A -> B -> Prop) l r : Forall2 P l r -> List.length l = List.length r.
Proof. induction 1; cbn; auto. Qed.

Lemma omap_seq_inv {B} (f : nat -> outcome B) n r d : omap f (seq 0 n) = Ok r -> List.length r = n /\ forall i, i < n -> f i = Ok (nth i r d).
Proof.
  intros E. apply omap_ok in E. pose proof (Forall2_len _ _ _ E) as L. rewrite seq_length in L. split; [auto|].
  intros i Hi. assert (N : nth_error (seq 0 n) i = Some i) by (apply nth_error_seq; auto).
  assert (Nr : nth_error r i = Some (nth i r d)) by (apply nth_error_nth'; lia).
  exact (proj2 (Forall2_nth_error _ _ _ E) _ _ _ N Nr).
Qed.

Lemma omap_seq_make {B} (f : nat -> outcome B) (g : nat -> B) n : (forall i, i < n -> f i = Ok (g i)) -> omap f (seq 0 n) = Ok (map g (seq 0 n)).
Proof. intros H. apply omap_map_ok. intros a Ha. apply in_seq in Ha. apply H. lia. Qed.

Lemma number_at cf s dim c : vp_bases s dim -> vp_cfg cf s -> c < rh_ncomp (rs_h s) ->
  (let* cn := oread (sc_comps cf) c in
    let* vn := oread (sc_vars cf) 1 in
    let* np := oread (rh_nb (rs_h s)) (c * rh_nvar (rs_h s) + 1) in
    let nsup0 := if (0 <? sc_default cf)%Z then sc_default cf else Z.of_nat np in
    Ok (look_up (print_tag (tag_for_component cn vn)) nsup0 (sc_dict cf))) = Ok (wanted cf s c).
Proof.
  intros V (C1 & C2) H. pose proof (vp_len _ _ V) as L. destruct V as (_ & _ & E2). rewrite E2, C2.
  rewrite (oread_nth _ c ""%string) by lia. cbn [obind]. change (oread ["vel"; "pres"]%string 1) with (Ok "pres"%string). cbn [obind].
  rewrite (oread_nth _ (c * 2 + 1) 0) by lia. cbn [obind]. rewrite look_up_find. reflexivity.
Qed.

Lemma numbers cf s dim : vp_bases s dim -> vp_cfg cf s ->
  parse_supremizer cf (rs_h s) = Ok (map (wanted cf s) (seq 0 (rh_ncomp (rs_h s))), map (fun m => wanted cf s (nth m (rh_types (rs_h s)) 0)) (seq 0 (rh_nsub (rs_h s)))).
Proof.
  intros V C. unfold parse_supremizer. destruct V as (B & E1 & E2). rewrite E1, (proj2 (Nat.eqb_eq _ _) E2). cbn [oassert].
  assert (V : vp_bases s dim) by (split; auto).
  rewrite (omap_seq_make _ (wanted cf s)) by (intros c H; exact (number_at cf s dim c V C H)). cbn [obind].
  rewrite (omap_seq_make _ (fun m => wanted cf s (nth m (rh_types (rs_h s)) 0))); [reflexivity|].
  intros m Hm. destruct B as (_ & (_ & _ & L & T & _) & _). rewrite (oread_nth _ m 0) by lia. cbn [obind].
  specialize (T m Hm). unfold comp_of in T. rewrite (oread_nth _ _ 0%Z) by (rewrite map_length, seq_length; auto).
  rewrite nth_map_seq by auto. reflexivity.
Qed.

(** ** Columns *)

Lemma dm_cols_length m : List.length (dm_cols m) = dm_w m.
Proof. unfold dm_cols. rewrite map_length, seq_length. auto. Qed.
Lemma dm_cols_wf m : cols_wf (dm_h m) (dm_cols m).
Proof. intros v Hv. apply in_map_iff in Hv as (j & <- & _). apply dm_col_length. Qed.
Lemma dm_cols_at m j : j < dm_w m -> colv (dm_cols m) j = dm_col m j.
Proof. intros H. unfold colv, dm_cols. rewrite nth_map_seq by auto. reflexivity. Qed.

Lemma dot_cols u v n i j : dm_h u = n -> dm_h v = n -> dot n (dm_col u i) (dm_col v j) = rsum n (fun k => mget u k i * mget v k j)%R.
Proof. intros E1 E2. unfold dot. apply rsum_ext. intros k Hk. rewrite !dm_col_nth by lia. reflexivity. Qed.

Lemma ortho_orthogonal u : ortho_cols u -> orthogonal_basis (dm_h u) (dm_cols u).
Proof.
  intros O. split.
  - intros i Hi. rewrite dm_cols_length in Hi. rewrite !dm_cols_at by auto. rewrite dot_cols by auto. rewrite O by auto.
    rewrite Nat.eqb_refl. lra.
  - intros i j Hi Hj N. rewrite dm_cols_length in Hi, Hj. rewrite !dm_cols_at by auto. rewrite dot_cols by auto. rewrite O by auto.
    apply Nat.eqb_neq in N. rewrite N. reflexivity.
Qed.

Lemma concat_len (q : list vec) n : cols_wf n q -> List.length (List.concat q) = List.length q * n.
Proof.
  induction q as [|v q IH]; intros W; cbn; auto. rewrite app_length, (W v), IH by (try (intros x Hx; apply W; right; auto); left; auto). lia.
Qed.

Lemma concat_at (q : list vec) n : cols_wf n q -> forall j i, j < List.length q -> i < n -> vnth (List.concat q) (i + j * n) = vnth (colv q j) i.
Proof.
  unfold vnth, colv. induction q as [|v q IH]; intros W j i Hj Hi; cbn [List.length] in *; [lia|].
  assert (Lv : List.length v = n) by (apply W; left; auto). cbn [List.concat]. destruct j as [|j].
  - rewrite app_nth1 by lia. cbn [nth]. f_equal. lia.
  - rewrite app_nth2 by lia. cbn [nth]. rewrite <- (IH ltac:(intros x Hx; apply W; right; auto) j i ltac:(lia) Hi). f_equal. nia.
Qed.

Lemma read_column_ok m k : dm_wf m -> k < dm_w m -> read_column m k = Ok (dm_col m k).
Proof.
  intros W H. unfold read_column, dm_col. apply omap_seq_make. intros i Hi. unfold dm_get. rewrite (oread_nth _ _ 0%R); [reflexivity|].
  apply mget_in; auto.
Qed.

(** ** One component *)

Lemma sup_columns B u p n : dm_wf p -> n <= dm_w p -> dm_h B = dm_h p -> dm_w B = dm_h u ->
  omap (fun k => let* pv := read_column p k in oguard ((dm_h B =? dm_h p) && (dm_w B =? dm_h u)) (Ok (dm_multt B pv))) (seq 0 n)
  = Ok (map (raw_sup B p) (seq 0 n)).
Proof.
  intros W H E1 E2. apply omap_seq_make. intros k Hk. rewrite read_column_ok by (auto; lia). cbn [obind].
  rewrite (proj2 (Nat.eqb_eq _ _) E1), (proj2 (Nat.eqb_eq _ _) E2). cbn [andb oguard]. f_equal. unfold dm_multt, raw_sup.
  apply map_ext. intros i. apply rsum_ext. intros l Hl. rewrite dm_col_nth by lia. reflexivity.
Qed.

Lemma raw_wf B p u n : dm_w B = dm_h u -> cols_wf (dm_h u) (map (raw_sup B p) (seq 0 n)).
Proof. intros E v Hv. apply in_map_iff in Hv as (k & <- & _). unfold raw_sup. rewrite map_length, seq_length. auto. Qed.

Definition spans_up_to (B u p F : dmat) (n : nat) : Prop :=
  forall m, m <= n -> forall a : nat -> R, exists c : nat -> R, forall i, i < dm_h u ->
    grad_of B p m a i = (rsum (dm_w u) (fun j => c j * mget u i j) + rsum m (fun j => c (dm_w u + j)%nat * mget F i j))%R.

Lemma rsum_le_ext n m f : m <= n -> (forall k, m <= k -> k < n -> f k = 0%R) -> rsum n f = rsum m f.
Proof.
  intros H Z. replace n with (m + (n - m)) by lia. rewrite rsum_split.
  rewrite (rsum_ext (n - m) _ (fun _ => 0%R)) by (intros i Hi; apply Z; lia). rewrite rsum_zero. lra.
Qed.

Lemma grad_raw B p m a i : i < dm_w B -> grad_of B p m a i = rsum m (fun k => (a k * vnth (raw_sup B p k) i)%R).
Proof.
  intros H. unfold grad_of, raw_sup, vnth.
  rewrite (rsum_ext (dm_h B) _ (fun l => rsum m (fun k => (mget B l i * (a k * mget p l k))%R))) by (intros; symmetry; apply rsum_scal).
  rewrite rsum_swap. apply rsum_ext. intros k Hk. rewrite nth_map_seq by auto. rewrite <- rsum_scal. apply rsum_ext. intros l Hl. cbn [Nat.add]. ring.
Qed.

Lemma component_ok B u p nb n F : dm_wf p -> (0 <= n)%Z -> Z.to_nat n <= dm_w p -> dm_h B = dm_h p -> dm_w B = dm_h u -> ortho_cols u ->
  enrich_component B u p nb n = Ok F ->
  dm_h F = dm_h u /\ dm_w F = Z.to_nat n /\ dm_wf F /\ ortho_cols F /\
  (forall i j, i < dm_w u -> j < dm_w F -> rsum (dm_h u) (fun k => mget u k i * mget F k j)%R = 0%R) /\
  spans_up_to B u p F (Z.to_nat n).
Proof.
  intros Wp N0 N1 E1 E2 O E. unfold enrich_component in E. apply assert_inv in E as (_ & E). apply guard_inv in E as (_ & E).
  rewrite (sup_columns B u p (Z.to_nat n) Wp N1 E1 E2) in E. cbn [obind] in E. apply bind_inv in E as (q & E & EF). injection EF as <-.
  destruct (orthonormalize_ok _ _ _ _ (dm_cols_wf u) (raw_wf B p u (Z.to_nat n) E2) (ortho_orthogonal u O) E) as (L & W & On & Ot & CC & T & _ & Tz & Dec).
  rewrite map_length, seq_length in L, Dec. rewrite dm_cols_length in Dec.
  assert (G : forall i j, i < dm_h u -> j < Z.to_nat n -> mget (DMat (dm_h u) (Z.to_nat n) (List.concat q)) i j = vnth (colv q j) i).
  { intros i j Hi Hj. unfold mget. cbn [dm_h dm_buf]. apply concat_at; [exact W|lia|exact Hi]. }
  split; [reflexivity|]. split; [reflexivity|]. split; [|split; [|split]].
  - unfold dm_wf. cbn [dm_h dm_w dm_buf]. rewrite (concat_len q _ W), L. lia.
  - intros i j Hi Hj. cbn [dm_h dm_w] in *. rewrite <- (On i j) by lia. unfold dot. apply rsum_ext. intros k Hk. rewrite !G by lia. reflexivity.
  - intros i j Hi Hj. cbn [dm_h dm_w] in *. rewrite <- (Ot (dm_col u i) (colv q j)).
    + unfold dot. apply rsum_ext. intros k Hk. rewrite G by lia. rewrite dm_col_nth by lia. reflexivity.
    + unfold dm_cols. apply in_map. apply in_seq. lia.
    + unfold colv. apply nth_In. lia.
  - intros m Hm a.
    exists (fun j => if j <? dm_w u then rsum m (fun k => (a k * CC j k)%R) else rsum m (fun k => (a k * T (j - dm_w u)%nat k)%R)).
    intros i Hi. rewrite grad_raw by lia.
    rewrite (rsum_ext m _ (fun k => (rsum (dm_w u) (fun j => a k * CC j k * mget u i j) + rsum m (fun j => a k * T j k * mget (DMat (dm_h u) (Z.to_nat n) (List.concat q)) i j))%R)).
    2:{ intros k Hk. specialize (Dec k i ltac:(lia) Hi). unfold colv at 1 in Dec. rewrite nth_map_seq in Dec by lia. cbn [Nat.add] in Dec.
        rewrite Dec, Rmult_plus_distr_l. f_equal.
        - rewrite <- rsum_scal. apply rsum_ext. intros j Hj. rewrite dm_cols_at, dm_col_nth by auto. ring.
        - rewrite (rsum_le_ext (Z.to_nat n) m) by (auto; intros j J1 J2; rewrite Tz by lia; ring).
          rewrite <- rsum_scal. apply rsum_ext. intros j Hj. rewrite G by lia. ring. }
    rewrite rsum_plus. f_equal.
    + rewrite rsum_swap. apply rsum_ext. intros j Hj. rewrite (proj2 (Nat.ltb_lt _ _) Hj). rewrite rsum_scal_r. reflexivity.
    + rewrite rsum_swap. apply rsum_ext. intros j Hj. rewrite (proj2 (Nat.ltb_ge _ _)) by lia.
      replace (dm_w u + j - dm_w u) with j by lia. rewrite rsum_scal_r. reflexivity.
Qed.

Lemma component_runs B u p nb n : dm_wf p -> (0 <= n)%Z -> Z.to_nat n <= dm_w p -> dm_h B = dm_h p -> dm_w B = dm_h u -> ortho_cols u -> nb = dm_w u ->
  lin_indep (dm_h u) (dm_cols u ++ map (raw_sup B p) (seq 0 (Z.to_nat n))) -> exists F, enrich_component B u p nb n = Ok F.
Proof.
  intros Wp N0 N1 E1 E2 O En LI. unfold enrich_component. rewrite (proj2 (Nat.eqb_eq _ _) En), (proj2 (Z.leb_le _ _) N0). cbn [oassert oguard].
  rewrite (sup_columns B u p (Z.to_nat n) Wp N1 E1 E2). cbn [obind].
  destruct (orthonormalize_accepts _ _ _ (dm_cols_wf u) (raw_wf B p u (Z.to_nat n) E2) (ortho_orthogonal u O) LI) as (q & E). rewrite E. cbn [obind]. eauto.
Qed.

(** ** All components *)

Lemma vp_ref s dim c : vp_bases s dim -> c < rh_ncomp (rs_h s) ->
  get_ref s (c * rh_nvar (rs_h s)) = Ok (vel s c) /\ get_ref s (c * rh_nvar (rs_h s) + 1) = Ok (pres s c) /\
  oread (rh_nb (rs_h s)) (c * rh_nvar (rs_h s)) = Ok (nvel s c) /\
  (dm_wf (vel s c) /\ dm_h (vel s c) = dim (c * 2) /\ dm_w (vel s c) = nvel s c) /\
  (dm_wf (pres s c) /\ dm_h (pres s c) = dim (c * 2 + 1) /\ dm_w (pres s c) = npres s c).
Proof.
  intros V H. pose proof (vp_len _ _ V) as L. destruct V as (B & E1 & E2). rewrite E2.
  split; [apply (get_ref_ok s dim); auto; lia|]. split; [apply (get_ref_ok s dim); auto; lia|].
  split; [apply oread_nth; lia|]. destruct B as (_ & _ & _ & D & _). split; [apply (D (c * 2)); lia|apply (D (c * 2 + 1)); lia].
Qed.

Lemma enrich_inv cf Bs s dim files : vp_bases s dim -> vp_cfg cf s -> div_sizes s dim Bs -> enrich_supremizer cf Bs s = Ok files ->
  List.length files = rh_ncomp (rs_h s) /\ forall c, c < rh_ncomp (rs_h s) ->
    enrich_component (nth c Bs (DMat 0 0 [])) (vel s c) (pres s c) (nvel s c) (wanted cf s c) = Ok (nth c files (DMat 0 0 [])).
Proof.
  intros V C D E. unfold enrich_supremizer in E. apply assert_inv in E as (_ & E). apply assert_inv in E as (_ & E).
  rewrite (numbers cf s dim V C) in E. cbn [obind] in E. apply (omap_seq_inv _ _ _ (DMat 0 0 [])) in E as (L & E). split; [auto|].
  intros c Hc. specialize (E c Hc). destruct (vp_ref s dim c V Hc) as (Eu & Ep & En & _). rewrite Eu, Ep, En in E. cbn [obind] in E.
  destruct D as (LB & _). rewrite (oread_nth Bs c (DMat 0 0 [])) in E by lia. cbn [obind] in E.
  rewrite (oread_nth _ c 0%Z) in E by (rewrite map_length, seq_length; auto). rewrite nth_map_seq in E by auto. exact E.
Qed.

Lemma enrich_runs cf Bs s dim : vp_bases s dim -> vp_cfg cf s -> div_sizes s dim Bs ->
  (forall c, c < rh_ncomp (rs_h s) -> ortho_cols (vel s c) /\ (0 <= wanted cf s c <= Z.of_nat (npres s c))%Z /\
     lin_indep (dim (c * 2)) (dm_cols (vel s c) ++ map (raw_sup (nth c Bs (DMat 0 0 [])) (pres s c)) (seq 0 (Z.to_nat (wanted cf s c))))) ->
  exists files, enrich_supremizer cf Bs s = Ok files.
Proof.
  intros V C D H. unfold enrich_supremizer. assert (E1 : rh_sep (rs_h s) = true) by apply V. assert (E2 : rs_loaded s = true) by apply V.
  rewrite E1, E2. cbn [oassert]. rewrite (numbers cf s dim V C). cbn [obind]. apply omap_exists. intros c Hc. apply in_seq in Hc.
  destruct (vp_ref s dim c V ltac:(lia)) as (Eu & Ep & En & (Wu & Hu & Lu) & (Wp & Hp & Lp)). rewrite Eu, Ep, En. cbn [obind]. destruct D as (LB & D).
  rewrite (oread_nth Bs c (DMat 0 0 [])) by lia. cbn [obind].
  rewrite (oread_nth _ c 0%Z) by (rewrite map_length, seq_length; lia). rewrite nth_map_seq by lia. cbn [obind].
  destruct (H c ltac:(lia)) as (O & N & LI). destruct (D c ltac:(lia)) as (D1 & D2). cbn [Nat.add].
  apply component_runs; auto; try lia. rewrite Hu. exact LI.
Qed.

(** ** Loading *)

Lemma load_step s dim f n m s1 g : vp_bases s dim -> m < rh_ncomp (rs_h s) -> appended s dim f n m s1 ->
  dm_wf g -> dm_h g = dim (m * 2) -> dm_w g = n m -> (forall i j, i < dim (m * 2) -> j < n m -> mget g i j = mget (f m) i j) ->
  exists s2, append_reference_basis s1 (m * rh_nvar (rs_h s1)) g = Ok s2 /\ appended s dim f n (S m) s2.
Proof.
  intros V Hm (V1 & S1 & S2 & S3 & S4 & A) Wg Hg Lg Gg. pose proof (vp_len _ _ V1) as L1. destruct V1 as (B1 & V2 & V3). rewrite V3.
  destruct (append_ok s1 dim (m * 2) g B1 ltac:(lia) Wg Hg) as (s2 & E & B2 & Eh & _ & (Old & New) & Oth). exists s2. split; [exact E|].
  assert (NB : rh_nb (rs_h s2) = upd (rh_nb (rs_h s1)) (m * 2) (nvel s1 m + dm_w g)) by (rewrite Eh; reflexivity).
  split; [split; [exact B2|rewrite Eh; auto]|]. do 4 (split; [rewrite Eh; auto|]).
  intros c Hc. destruct (A c Hc) as (A1 & A2 & A3 & A4 & A5).
  assert (P1 : npres s2 c = npres s1 c) by (unfold npres; rewrite NB, nth_upd_ne by lia; reflexivity).
  assert (P2 : pres s2 c = pres s1 c) by (unfold pres; apply Oth; lia). rewrite P1, P2. split; [auto|]. split; [auto|].
  destruct (Nat.eq_dec c m) as [->|N].
  - assert (Q1 : nvel s2 m = nvel s1 m + n m) by (unfold nvel at 1; rewrite NB, nth_upd_eq by lia; lia).
    rewrite Q1, A3, Nat.ltb_irrefl, (proj2 (Nat.ltb_lt m (S m))) by lia. split; [lia|].
    rewrite Nat.ltb_irrefl, Nat.add_0_r in A3. fold (nvel s1 m) in Old, New. fold (vel s1 m) in Old. fold (vel s2 m) in Old, New.
    rewrite A3 in Old, New. split.
    + intros i j Hi Hj. rewrite Old by auto. apply A4; auto.
    + intros _ i j Hi Hj. rewrite New by lia. apply Gg; auto.
  - assert (Q1 : nvel s2 c = nvel s1 c) by (unfold nvel; rewrite NB, nth_upd_ne by lia; reflexivity).
    assert (Q2 : vel s2 c = vel s1 c) by (unfold vel; apply Oth; lia). rewrite Q1, Q2, A3. split.
    + f_equal. destruct (c <? m) eqn:L; destruct (c <? S m) eqn:L'; auto; [apply Nat.ltb_lt in L; apply Nat.ltb_ge in L'; lia|apply Nat.ltb_ge in L; apply Nat.ltb_lt in L'; lia].
    + split; [exact A4|]. intros Hlt. apply A5. lia.
Qed.

Lemma appended_0 s dim f n : vp_bases s dim -> appended s dim f n 0 s.
Proof. intros V. split; [auto|]. do 4 (split; [auto|]). intros c Hc. cbn [Nat.ltb Nat.leb]. repeat split; auto; lia. Qed.

Lemma load_all cf s dim files : vp_bases s dim -> vp_cfg cf s ->
  (forall c, c < rh_ncomp (rs_h s) -> exists f, nth c files None = Some f /\ dm_wf f /\ dm_h f = dim (c * 2) /\ (0 <= wanted cf s c <= Z.of_nat (dm_w f))%Z) ->
  exists s', load_supremizer cf files s = Ok s' /\
    appended s dim (fun c => match nth c files None with Some f => f | None => DMat 0 0 [] end) (fun c => Z.to_nat (wanted cf s c)) (rh_ncomp (rs_h s)) s'.
Proof.
  intros V C H. unfold load_supremizer. assert (E1 : rh_sep (rs_h s) = true) by apply V. assert (E2 : rs_loaded s = true) by apply V.
  rewrite E1, E2. cbn [oassert]. rewrite (numbers cf s dim V C). cbn [obind].
  apply ofor_inv with (I := fun m s' => appended s dim (fun c => match nth c files None with Some f => f | None => DMat 0 0 [] end) (fun c => Z.to_nat (wanted cf s c)) m s').
  - apply appended_0. auto.
  - intros m s1 Hm A. destruct (H m Hm) as (f & Ef & Wf & Hf & N). rewrite Ef.
    rewrite (oread_nth _ m 0%Z) by (rewrite map_length, seq_length; auto). rewrite nth_map_seq by auto. cbn [obind].
    rewrite (proj2 (Z.ltb_ge _ _)), (proj2 (Z.leb_le _ _)) by (cbn [Nat.add]; lia). cbn [oguard Nat.add].
    refine (load_step s dim _ _ m s1 (DMat (dm_h f) (Z.to_nat (wanted cf s m)) (dm_buf f)) V Hm A _ Hf eq_refl _).
    + unfold dm_wf in *. cbn [dm_h dm_w dm_buf]. assert (Z.to_nat (wanted cf s m) <= dm_w f) by lia. nia.
    + intros i j _ _. rewrite Ef. reflexivity.
Qed.

Lemma load_refuses cf s dim files c r : vp_bases s dim -> vp_cfg cf s -> c < rh_ncomp (rs_h s) ->
  (nth c files None = None \/ exists f, nth c files None = Some f /\ (Z.of_nat (dm_w f) < wanted cf s c)%Z) ->
  load_supremizer cf files s <> Ok r.
Proof.
  intros V C Hc H E. unfold load_supremizer in E. apply assert_inv in E as (_ & E). apply assert_inv in E as (_ & E).
  rewrite (numbers cf s dim V C) in E. cbn [obind] in E.
  assert (K : c < rh_ncomp (rs_h s) -> False); [|auto].
  refine (ofor_inv_ok _ _ (fun n _ => c < n -> False) s r _ _ E); [lia|].
  intros i a a' Hi IH Ea Hlt. destruct (Nat.eq_dec c i) as [<-|]; [|apply IH; lia].
  destruct H as [N|(f & N & W)]; rewrite N in Ea; [discriminate|].
  rewrite (oread_nth _ c 0%Z) in Ea by (rewrite map_length, seq_length; auto). rewrite nth_map_seq in Ea by auto. cbn [obind Nat.add] in Ea.
  rewrite (proj2 (Z.ltb_lt _ _) W) in Ea. discriminate.
Qed.

(** ** The enriched basis *)

Lemma joined_ortho u F E n : dm_h E = dm_h u -> dm_w E = dm_w u + n -> dm_h F = dm_h u -> n <= dm_w F -> ortho_cols u -> ortho_cols F ->
  (forall i j, i < dm_w u -> j < dm_w F -> rsum (dm_h u) (fun k => mget u k i * mget F k j)%R = 0%R) ->
  (forall i j, i < dm_h u -> j < dm_w u -> mget E i j = mget u i j) -> (forall i j, i < dm_h u -> j < n -> mget E i (dm_w u + j) = mget F i j) ->
  ortho_cols E.
Proof.
  intros HE LE HF LF Ou OF Ot G1 G2 i j Hi Hj. rewrite HE. rewrite LE in Hi, Hj.
  destruct (Nat.lt_ge_cases i (dm_w u)) as [I|I]; destruct (Nat.lt_ge_cases j (dm_w u)) as [J|J].
  - rewrite <- (Ou i j) by auto. apply rsum_ext. intros k Hk. rewrite !G1 by auto. reflexivity.
  - rewrite (proj2 (Nat.eqb_neq i j)) by lia. rewrite <- (Ot i (j - dm_w u)) by lia. apply rsum_ext. intros k Hk.
    replace j with (dm_w u + (j - dm_w u)) at 1 by lia. rewrite G1, G2 by lia. reflexivity.
  - rewrite (proj2 (Nat.eqb_neq i j)) by lia. rewrite <- (Ot j (i - dm_w u)) by lia. apply rsum_ext. intros k Hk.
    replace i with (dm_w u + (i - dm_w u)) at 1 by lia. rewrite (G1 k j), (G2 k (i - dm_w u)) by lia. ring.
  - transitivity (if i - dm_w u =? j - dm_w u then 1%R else 0%R).
    + rewrite <- (OF (i - dm_w u) (j - dm_w u)) by lia. rewrite HF. apply rsum_ext. intros k Hk.
      replace i with (dm_w u + (i - dm_w u)) at 1 by lia. replace j with (dm_w u + (j - dm_w u)) at 1 by lia. rewrite !G2 by lia. reflexivity.
    + destruct (Nat.eqb_spec (i - dm_w u) (j - dm_w u)); destruct (Nat.eqb_spec i j); auto; lia.
Qed.

(** ** Independence *)

Lemma upper_zero n (T : nat -> nat -> R) (b : nat -> R) : (forall i, i < n -> (0 < T i i)%R) -> (forall k j, j < k -> T k j = 0%R) ->
  (forall i, i < n -> rsum n (fun j => b j * T i j)%R = 0%R) -> forall j, j < n -> b j = 0%R.
Proof.
  intros P Z H. assert (K : forall d j, j < n -> n - j <= d -> b j = 0%R).
  { induction d as [|d IH]; intros j Hj Hd; [lia|]. specialize (H j Hj).
    rewrite (rsum_single n j) in H; [|auto|].
    - apply Rmult_integral in H as [H|H]; [auto|]. specialize (P j Hj). lra.
    - intros i Hi N. destruct (Nat.lt_ge_cases i j) as [L|L]; [rewrite Z by auto; ring|]. rewrite (IH i) by lia. ring. }
  intros j Hj. apply (K n j); lia.
Qed.

Lemma independent_of n us q raws C T : cols_wf n us -> cols_wf n q -> orthogonal_basis n us -> orthonormal n q -> orthogonal_to n us q -> List.length q = List.length raws ->
  (forall i, i < List.length raws -> (0 < T i i)%R) -> (forall k j, j < k -> T k j = 0%R) ->
  (forall j p, j < List.length raws -> p < n -> vnth (colv raws j) p = (rsum (List.length us) (fun k => C k j * vnth (colv us k) p) + rsum (List.length raws) (fun k => T k j * vnth (colv q k) p))%R) ->
  lin_indep n (us ++ raws).
Proof.
  intros Wu Wq (Ob1 & Ob2) On Ot L P Z Dec a Ha. rewrite app_length in *. set (l1 := List.length us) in *. set (l2 := List.length raws) in *.
  assert (C1 : forall k, k < l1 -> colv (us ++ raws) k = colv us k) by (intros k Hk; unfold colv; apply app_nth1; auto).
  assert (C2 : forall k, colv (us ++ raws) (l1 + k) = colv raws k).
  { intros k. unfold colv. rewrite app_nth2 by (unfold l1; lia). f_equal. unfold l1. lia. }
  set (b := fun j => a (l1 + j)). set (e := fun k => (a k + rsum l2 (fun j => b j * C k j))%R). set (g := fun k => rsum l2 (fun j => b j * T k j)%R).
  assert (Hz : forall p, p < n -> (rsum l1 (fun k => e k * vnth (colv us k) p) + rsum l2 (fun k => g k * vnth (colv q k) p) = 0)%R).
  { intros p Hp. rewrite <- (Ha p Hp). rewrite rsum_split.
    rewrite (rsum_ext l1 (fun k => (a k * vnth (colv (us ++ raws) k) p)%R) (fun k => (a k * vnth (colv us k) p)%R)) by (intros k Hk; rewrite C1; auto).
    rewrite (rsum_ext l2 (fun i => (a (l1 + i)%nat * vnth (colv (us ++ raws) (l1 + i)%nat) p)%R)
       (fun j => (rsum l1 (fun k => b j * C k j * vnth (colv us k) p) + rsum l2 (fun k => b j * T k j * vnth (colv q k) p))%R)).
    2:{ intros j Hj. rewrite C2, Dec by auto. fold (b j). rewrite Rmult_plus_distr_l, <- !rsum_scal. f_equal; apply rsum_ext; intros k Hk; ring. }
    rewrite rsum_plus, (rsum_swap l2 l1), (rsum_swap l2 l2). unfold e, g.
    rewrite (rsum_ext l1 (fun k => ((a k + rsum l2 (fun j => b j * C k j)) * vnth (colv us k) p)%R)
      (fun k => (a k * vnth (colv us k) p + rsum l2 (fun j => b j * C k j * vnth (colv us k) p))%R)) by (intros k Hk; rewrite rsum_scal_r; ring).
    rewrite rsum_plus. rewrite (rsum_ext l2 (fun k => (rsum l2 (fun j => b j * T k j) * vnth (colv q k) p)%R) (fun k => rsum l2 (fun j => b j * T k j * vnth (colv q k) p)%R)) by (intros k Hk; rewrite rsum_scal_r; reflexivity).
    ring. }
  assert (In1 : forall k, k < l1 -> In (colv us k) us) by (intros k Hk; apply nth_In; auto).
  assert (In2 : forall k, k < l2 -> In (colv q k) q) by (intros k Hk; apply nth_In; lia).
  assert (D : forall w, (rsum l1 (fun k => e k * dot n (colv us k) w) + rsum l2 (fun k => g k * dot n (colv q k) w) = 0)%R).
  { intros w. transitivity (rsum n (fun p => ((rsum l1 (fun k => e k * vnth (colv us k) p) + rsum l2 (fun k => g k * vnth (colv q k) p)) * vnth w p)%R)).
    - unfold dot. rewrite (rsum_ext n _ (fun p => (rsum l1 (fun k => e k * (vnth (colv us k) p * vnth w p)) + rsum l2 (fun k => g k * (vnth (colv q k) p * vnth w p)))%R)).
      + rewrite rsum_plus, (rsum_swap n l1), (rsum_swap n l2). f_equal; apply rsum_ext; intros k Hk; rewrite rsum_scal; reflexivity.
      + intros p Hp. rewrite Rmult_plus_distr_r, <- !rsum_scal_r. f_equal; apply rsum_ext; intros k Hk; ring.
    - rewrite (rsum_ext n _ (fun _ => 0%R)) by (intros p Hp; rewrite Hz by auto; ring). apply rsum_zero. }
  assert (G0 : forall i, i < l2 -> g i = 0%R).
  { intros i Hi. pose proof (D (colv q i)) as Di. rewrite (rsum_ext l1 _ (fun _ => 0%R)) in Di by (intros k Hk; rewrite Ot by auto; ring).
    rewrite rsum_zero, (rsum_single l2 i) in Di; [|auto|].
    - rewrite On in Di by lia. rewrite Nat.eqb_refl in Di. lra.
    - intros k Hk N. rewrite On by lia. rewrite (proj2 (Nat.eqb_neq _ _) N). ring. }
  pose proof (upper_zero l2 T b P Z G0) as B0.
  assert (E0 : forall i, i < l1 -> e i = 0%R).
  { intros i Hi. pose proof (D (colv us i)) as Di. rewrite (rsum_ext l2 _ (fun _ => 0%R)) in Di by (intros k Hk; rewrite G0 by auto; ring).
    rewrite rsum_zero, (rsum_single l1 i) in Di; [|auto|].
    - assert (X : (e i * dot n (colv us i) (colv us i) = 0)%R) by lra. apply Rmult_integral in X as [X|X]; [auto|]. elim (Ob1 i Hi X).
    - intros k Hk N. rewrite Ob2 by auto. ring. }
  intros k Hk. destruct (Nat.lt_ge_cases k l1) as [Hl|Hl].
  - specialize (E0 k Hl). unfold e in E0. rewrite (rsum_ext l2 _ (fun _ => 0%R)) in E0 by (intros j Hj; rewrite B0 by auto; ring). rewrite rsum_zero in E0. lra.
  - replace k with (l1 + (k - l1)) by lia. apply B0. lia.
Qed.

Lemma component_independent B u p nb n F : dm_wf p -> (0 <= n)%Z -> Z.to_nat n <= dm_w p -> dm_h B = dm_h p -> dm_w B = dm_h u -> ortho_cols u ->
  enrich_component B u p nb n = Ok F -> lin_indep (dm_h u) (dm_cols u ++ map (raw_sup B p) (seq 0 (Z.to_nat n))).
Proof.
  intros Wp N0 N1 E1 E2 O E. unfold enrich_component in E. apply assert_inv in E as (_ & E). apply guard_inv in E as (_ & E).
  rewrite (sup_columns B u p (Z.to_nat n) Wp N1 E1 E2) in E. cbn [obind] in E. apply bind_inv in E as (q & E & EF).
  destruct (orthonormalize_ok _ _ _ _ (dm_cols_wf u) (raw_wf B p u (Z.to_nat n) E2) (ortho_orthogonal u O) E) as (L & W & On & Ot & CC & T & Tp & Tz & Dec).
  exact (independent_of _ _ q _ CC T (dm_cols_wf u) W (ortho_orthogonal u O) On Ot L Tp Tz Dec).
Qed.
