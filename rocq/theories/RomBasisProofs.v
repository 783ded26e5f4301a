(** Loading, projecting, lifting, appending. *)
From Coq Require Import Reals List Bool Lia Arith ZArith String Lra.
From Verif Require Import Outcome ListLemmas LaBase LinalgModel LinalgSpec LinalgProofs BlockVec TagsModel CompProofs RomModel RomSpec RomProofs.
Import ListNotations.
Local Open Scope nat_scope.

Lemma num_ref_blocks_eq h : rom_wf h -> num_ref_blocks h = List.length (rh_nb h).
Proof. intros (_ & _ & _ & _ & L). rewrite L. unfold num_ref_blocks. destruct (rh_sep h); lia. Qed.

Lemma ref_place_in h m v : rom_wf h -> unknown h m v -> ref_place h (comp_of h m) v < List.length (rh_nb h).
Proof. intros (_ & _ & _ & C & L) (Hm & Hv). rewrite L. apply ref_place_lt; auto. Qed.

Lemma num_blocks_pos h : rom_wf h -> 0 < blocks h.
Proof. intros (A & B & _). unfold blocks. destruct (rh_sep h); nia. Qed.

(** The variable index as the code computes it. *)
Lemma var_of h m v : unknown h m v -> (if rh_sep h then Z.to_nat (if rh_sep h then Z.of_nat v else (-1)%Z) else 0) = v.
Proof. intros (_ & H). destruct (rh_sep h); [apply Nat2Z.id|auto]. Qed.

(** ** Loading *)

Lemma omap_map_ok {A B} (f : A -> outcome B) (g : A -> B) l : (forall a, In a l -> f a = Ok (g a)) -> omap f l = Ok (map g l).
Proof.
  induction l; intros H; cbn [omap map]; auto. rewrite H by (left; auto). cbn [obind]. rewrite IHl by (intros; apply H; right; auto). auto.
Qed.

(** What the bases of the reader give. *)
Definition files_ok (h : rom) (dim : nat -> nat) (files : list rmat) : Prop :=
  List.length files = List.length (rh_nb h) /\
  forall b, b < List.length (rh_nb h) -> let c := nth b files (RMat 0 0 false []) in
    rm_wf c /\ rm_r c = dim b /\ rm_c c = nth b (rh_nb h) 0.

Lemma load_ok s dim files : rom_wf (rs_h s) -> files_ok (rs_h s) dim (if rs_loaded s then rs_carom s else files) ->
  tiles (rs_h s) (place (rs_h s)) (basis_size (rs_h s)) (rs_off s) ->
  exists s', load_reduced_basis files s = Ok s' /\ bases_ok s' dim /\ rs_h s' = rs_h s /\
    rs_off s' = rs_off s /\ rs_coff s' = rs_coff s /\ rs_nbasis s' = rs_nbasis s /\
    rs_carom s' = (if rs_loaded s then rs_carom s else files) /\
    (forall b i j, b < List.length (rh_nb (rs_h s)) -> i < dim b -> j < nth b (rh_nb (rs_h s)) 0 ->
       mget (nth b (rs_ref s') (DMat 0 0 [])) i j = rget (nth b (rs_carom s') (RMat 0 0 false [])) i j).
Proof.
  intros W (Lf & Hf) T. unfold load_reduced_basis. set (carom := if rs_loaded s then rs_carom s else files) in *.
  set (h := rs_h s) in *.
  assert (Mk : exists ref, omap (fun c => copy_matrix c (DMat (rm_r c) (rm_c c) (repeat 0%R (rm_r c * rm_c c)))) carom = Ok ref /\
     Forall2 (fun c m => dm_wf m /\ dm_h m = rm_r c /\ dm_w m = rm_c c /\
       forall i j, i < rm_r c -> j < rm_c c -> mget m i j = rget c i j) carom ref).
  { assert (Hw : forall c, In c carom -> rm_wf c).
    { intros c Hc. apply In_nth with (d := RMat 0 0 false []) in Hc. destruct Hc as (b & Hb & <-). apply Hf. lia. }
    clear - Hw. induction carom as [|c l IH]; [exists []; cbn; auto|].
    destruct (copy_matrix_ok c (DMat (rm_r c) (rm_c c) (repeat 0%R (rm_r c * rm_c c)))) as (m & E & P).
    - apply Hw. left. auto.
    - unfold dm_wf. cbn [dm_h dm_w dm_buf]. rewrite repeat_length. lia.
    - destruct IH as (r & Er & F); [intros; apply Hw; right; auto|]. exists (m :: r).
      cbn [omap]. rewrite E. cbn [obind]. rewrite Er. cbn [obind]. split; auto. }
  destruct Mk as (ref & Er & F). rewrite Er. cbn [obind].
  assert (Lr : List.length ref = List.length (rh_nb h)) by (rewrite <- Lf; symmetry; clear - F; induction F; cbn; auto).
  set (idx := fun k => let '(m, v) := match dom_var h k with Ok p => p | _ => (0, 0%Z) end in
     if rh_sep h then nth m (rh_types h) 0 * rh_nvar h + Z.to_nat v else nth m (rh_types h) 0).
  assert (Hidx : forall m v, unknown h m v -> idx (place h m v) = ref_place h (comp_of h m) v).
  { intros m v U. unfold idx, ref_place, comp_of. rewrite dom_var_place by auto. destruct (rh_sep h); auto.
    rewrite Nat2Z.id. auto. }
  rewrite (omap_map_ok _ idx).
  2:{ intros k Hk. apply in_seq in Hk. rewrite num_blocks_blocks in Hk. destruct (place_onto h k) as (m & v & U & <-); [lia|].
      rewrite (Hidx m v U). rewrite dom_var_place by auto. cbn [obind].
      pose proof (ref_place_in h m v W U) as B. destruct W as (_ & _ & Lt & _). destruct U as (Hm & Hv).
      rewrite (oread_nth (rh_types h) m 0) by lia. cbn [obind].
      replace (if rh_sep h then nth m (rh_types h) 0 * rh_nvar h + Z.to_nat (if rh_sep h then Z.of_nat v else (-1)%Z) else nth m (rh_types h) 0)
        with (ref_place h (comp_of h m) v) by (unfold ref_place, comp_of; destruct (rh_sep h); rewrite ?Nat2Z.id; auto).
      rewrite (oread_nth ref _ (DMat 0 0 [])) by lia. reflexivity. }
  cbn [obind]. eexists. split; [reflexivity|].
  assert (Fb : forall b, b < List.length (rh_nb h) -> let c := nth b carom (RMat 0 0 false []) in let m := nth b ref (DMat 0 0 []) in
     dm_wf m /\ dm_h m = rm_r c /\ dm_w m = rm_c c /\ forall i j, i < rm_r c -> j < rm_c c -> mget m i j = rget c i j).
  { intros b Hb. cbv zeta. revert b Hb. clear - F Lf. rewrite <- Lf. clear Lf. induction F; intros b Hb; [cbn in Hb; lia|].
    destruct b; [exact H|]. apply IHF. cbn [List.length] in Hb. lia. }
  split; [|cbn [rs_h rs_off rs_coff rs_nbasis rs_carom rs_ref]; repeat (split; [reflexivity|])].
  - unfold bases_ok. cbn [rs_loaded rs_h rs_ref rs_off rs_dom]. split; [auto|]. split; [auto|]. split; [auto|]. split; [|split; [auto|split]].
    + intros b Hb. destruct (Fb b Hb) as (A & B & C & _). destruct (Hf b Hb) as (_ & R1 & R2). split; [auto|]. split; congruence.
    + rewrite map_length, seq_length, num_blocks_blocks. auto.
    + intros m v U. pose proof (place_lt h m v U). rewrite nth_map_seq by (rewrite num_blocks_blocks; auto). cbn. apply Hidx. auto.
  - intros b i j Hb Hi Hj. destruct (Fb b Hb) as (_ & _ & _ & D). destruct (Hf b Hb) as (_ & R1 & R2). apply D; congruence.
Qed.

(** ** Access *)

Lemma get_ref_ok s dim b : bases_ok s dim -> b < List.length (rh_nb (rs_h s)) -> get_ref s b = Ok (nth b (rs_ref s) (DMat 0 0 [])).
Proof.
  intros (_ & W & L & _) Hb. unfold get_ref. rewrite num_ref_blocks_eq by auto.
  rewrite (proj2 (Nat.ltb_lt 0 _)) by lia. rewrite (proj2 (Nat.ltb_lt _ _)) by lia. cbn [oassert]. apply oread_nth. lia.
Qed.

Lemma get_dom_ok s dim m v : bases_ok s dim -> unknown (rs_h s) m v -> get_dom s (place (rs_h s) m v) = Ok (basis_of s m v).
Proof.
  intros (Ld & W & L & _ & _ & Ldm & Dm) U. unfold get_dom. rewrite Ld. cbn [oassert]. rewrite num_blocks_blocks.
  pose proof (place_lt _ _ _ U) as B. rewrite (proj2 (Nat.ltb_lt _ _)) by lia. cbn [oassert].
  rewrite (oread_nth (rs_dom s) _ 0) by lia. cbn [obind]. rewrite (Dm m v U).
  pose proof (ref_place_in _ _ _ W U). rewrite (oread_nth (rs_ref s) _ (DMat 0 0 [])) by lia. reflexivity.
Qed.

Lemma basis_of_ok s dim m v : bases_ok s dim -> unknown (rs_h s) m v ->
  dm_wf (basis_of s m v) /\ dm_h (basis_of s m v) = full_size (rs_h s) dim m v /\ dm_w (basis_of s m v) = basis_size (rs_h s) m v.
Proof. intros (Ld & W & L & R & _) U. apply R. apply ref_place_in; auto. Qed.

(** ** Vectors *)

Lemma dm_mult_length m x : List.length (dm_mult m x) = dm_h m.
Proof. unfold dm_mult. rewrite map_length, seq_length. auto. Qed.
Lemma dm_multt_length m x : List.length (dm_multt m x) = dm_w m.
Proof. unfold dm_multt. rewrite map_length, seq_length. auto. Qed.
Lemma dm_mult_nth m x i : i < dm_h m -> vnth (dm_mult m x) i = mat_vec m x i.
Proof. intros. unfold dm_mult, vnth. rewrite nth_map_seq by auto. reflexivity. Qed.
Lemma dm_multt_nth m x i : i < dm_w m -> vnth (dm_multt m x) i = mat_t_vec m x i.
Proof. intros. unfold dm_multt, vnth. rewrite nth_map_seq by auto. reflexivity. Qed.

Lemma fom_idx h m v : unknown h m v ->
  (if rh_sep h then Z.to_nat (if rh_sep h then Z.of_nat v else (-1)%Z) + m * rh_nvar h else m) = fom_place h m v.
Proof. intros _. unfold fom_place. destruct (rh_sep h); rewrite ?Nat2Z.id; lia. Qed.

(** Index of the unknown of a block, for the loops. *)
Definition um (h : rom) (k : nat) : nat := match dom_var h k with Ok p => fst p | _ => 0 end.
Definition uv (h : rom) (k : nat) : nat := match dom_var h k with Ok p => if rh_sep h then Z.to_nat (snd p) else 0 | _ => 0 end.
Lemma um_uv h k : k < blocks h -> unknown h (um h k) (uv h k) /\ place h (um h k) (uv h k) = k.
Proof.
  intros H. destruct (place_onto h k H) as (m & v & U & <-). unfold um, uv. rewrite dom_var_place by auto. cbn [fst snd].
  rewrite (var_of h m v U). auto.
Qed.
Lemma um_uv_place h m v : unknown h m v -> um h (place h m v) = m /\ uv h (place h m v) = v.
Proof. intros U. unfold um, uv. rewrite dom_var_place by auto. cbn [fst snd]. split; auto. apply (var_of h m v U). Qed.
Lemma dom_var_um h k : k < blocks h -> exists w, dom_var h k = Ok (um h k, w) /\
  (if rh_sep h then Z.to_nat w + um h k * rh_nvar h else um h k) = fom_place h (um h k) (uv h k).
Proof.
  intros H. destruct (place_onto h k H) as (m & v & U & <-). destruct (um_uv_place h m v U) as (-> & ->).
  rewrite dom_var_place by auto. eexists. split; [reflexivity|]. apply fom_idx. auto.
Qed.

Lemma blk_entry b h pl size m v k : fits h pl size b ->
  (forall k, k < blocks h -> exists m v, unknown h m v /\ pl m v = k) ->
  (forall m v, unknown h m v -> pl m v < blocks h) ->
  unknown h m v -> k < size m v -> vnth (blk b (pl m v)) k = entry pl b m v k.
Proof.
  intros F On Lt U K. pose proof (fits_wf _ _ _ _ F On) as W. destruct F as (T & _).
  rewrite (blk_nth _ _ _ W) by (auto; rewrite (tiles_sz h pl size); auto). reflexivity.
Qed.

(** From a well formed vector with the right offsets back to [fits]. *)
Lemma wf_fits h pl size b b0 : fits h pl size b0 -> bv_wf b (blocks h) (sz (bv_off b0)) -> bv_off b = bv_off b0 -> fits h pl size b.
Proof.
  intros (T & L) W E. split; [rewrite E; auto|]. rewrite (proj2 W). destruct W as (O & _).
  rewrite (offsets_nsum _ _ _ (blocks h) O) by lia. auto.
Qed.

Section Vectors.
  Variables (s : romst) (dim : nat -> nat).
  Hypothesis B : bases_ok s dim.
  Let h := rs_h s.
  Let fsz := full_size h dim.
  Let rsz := basis_size h.

  Lemma project_global_blocks V junk : fits h (fom_place h) fsz V -> List.length junk = nth (blocks h) (rs_off s) 0 ->
    exists r, project_global s V junk = Ok r /\ fits h (place h) rsz r /\ bv_off r = rs_off s /\
      forall m v, unknown h m v -> blk r (place h m v) = dm_multt (basis_of s m v) (blk V (fom_place h m v)).
  Proof.
    intros FV Lj. pose proof (fits_wf _ _ _ _ FV (fom_place_onto h)) as WV. pose proof FV as (TV & _).
    assert (T : tiles h (place h) rsz (rs_off s)) by apply B.
    assert (F0 : fits h (place h) rsz (BVec (rs_off s) junk)) by (split; auto).
    pose proof (fits_wf _ _ _ _ F0 (place_onto h)) as W0.
    unfold project_global. fold h. rewrite (bv_n_wf _ _ _ WV), num_blocks_blocks, Nat.eqb_refl. cbn [oassert].
    destruct (bv_fill (blocks h) (sz (rs_off s)) (blocks h) (fun i => i)
       (fun i => dm_multt (basis_of s (um h i) (uv h i)) (blk V (fom_place h (um h i) (uv h i)))) (fun r i =>
    let* (m, w) := dom_var h i in
    let f := if rh_sep h then Z.to_nat w + m * rh_nvar h else m in
    let* x := bv_get V f in
    let* ri := bv_get r i in
    let* y := project_dom_vec s i x (List.length ri) in
    bv_put r i y) (BVec (rs_off s) junk) W0) as (r & E & Wr & Or & Hr & _).
    - intros i Hi. split; auto. destruct (um_uv h i Hi) as (U & P). rewrite dm_multt_length.
      destruct (basis_of_ok s dim _ _ B U) as (_ & _ & ->). rewrite <- P at 3. rewrite (tiles_sz h (place h) rsz); auto.
    - auto.
    - intros b i Hi Wb Ob. destruct (dom_var_um h i Hi) as (w & Ed & Ef). rewrite Ed. cbn [obind]. rewrite Ef.
      destruct (um_uv h i Hi) as (U & P). destruct (basis_of_ok s dim _ _ B U) as (_ & B2 & B3).
      pose proof (fom_place_lt h _ _ U) as Fl.
      rewrite (bv_get_ok _ _ _ WV) by auto. cbn [obind]. rewrite (bv_get_ok _ _ _ Wb) by auto. cbn [obind].
      unfold project_dom_vec. destruct B as (Ld & B'). rewrite Ld. cbn [oassert]. fold h. rewrite num_blocks_blocks.
      rewrite (proj2 (Nat.ltb_lt _ _) Hi). cbn [oassert]. pose proof (get_dom_ok s dim _ _ B U) as G. fold h in G. rewrite P in G. rewrite G. cbn [obind].
      rewrite (blk_length _ _ _ WV) by auto. rewrite (tiles_sz h (fom_place h) fsz) by auto. rewrite B2. fold h. fold fsz.
      rewrite Nat.eqb_refl. cbn [oassert].
      rewrite (blk_length _ _ _ Wb) by auto. rewrite B3. fold h. rewrite <- P at 1. rewrite (tiles_sz h (place h) rsz) by auto.
      fold rsz. rewrite Nat.eqb_refl. reflexivity.
    - exists r. split; [exact E|]. split; [eapply wf_fits; eauto|]. split; [auto|].
      intros m v U. rewrite Hr by (apply place_lt; auto). destruct (um_uv_place h m v U) as (-> & ->). auto.
  Qed.

  Lemma lift_global_blocks r V : fits h (place h) rsz r -> fits h (fom_place h) fsz V ->
    exists V', lift_global s r V = Ok V' /\ fits h (fom_place h) fsz V' /\ bv_off V' = bv_off V /\
      forall m v, unknown h m v -> blk V' (fom_place h m v) = dm_mult (basis_of s m v) (blk r (place h m v)).
  Proof.
    intros Fr FV. pose proof (fits_wf _ _ _ _ FV (fom_place_onto h)) as WV. pose proof FV as (TV & _).
    pose proof (fits_wf _ _ _ _ Fr (place_onto h)) as Wr. pose proof Fr as (Tr & _).
    unfold lift_global. fold h. rewrite (bv_n_wf _ _ _ WV), (bv_n_wf _ _ _ Wr), num_blocks_blocks, Nat.eqb_refl. cbn [oassert].
    destruct (bv_fill (blocks h) (sz (bv_off V)) (blocks h) (fun i => fom_place h (um h i) (uv h i))
       (fun i => dm_mult (basis_of s (um h i) (uv h i)) (blk r i)) (fun v i =>
    let* (m, w) := dom_var h i in
    let f := if rh_sep h then Z.to_nat w + m * rh_nvar h else m in
    let* ri := bv_get r i in
    let* vf := bv_get v f in
    let* y := lift_dom_vec s i ri (List.length vf) in
    bv_put v f y) V WV) as (V' & E & Wr' & Or & Hr & _).
    - intros i Hi. destruct (um_uv h i Hi) as (U & P). split; [apply fom_place_lt; auto|]. rewrite dm_mult_length.
      destruct (basis_of_ok s dim _ _ B U) as (_ & -> & _). rewrite (tiles_sz h (fom_place h) fsz); auto.
    - intros i j Hi Hj Eij. destruct (um_uv h i Hi) as (U & P). destruct (um_uv h j Hj) as (U' & P').
      destruct (fom_place_inj h _ _ _ _ U U' Eij) as (A1 & A2). congruence.
    - intros b i Hi Wb Ob. destruct (dom_var_um h i Hi) as (w & Ed & Ef). rewrite Ed. cbn [obind]. rewrite Ef.
      destruct (um_uv h i Hi) as (U & P). destruct (basis_of_ok s dim _ _ B U) as (_ & B2 & B3).
      pose proof (fom_place_lt h _ _ U) as Fl.
      rewrite (bv_get_ok _ _ _ Wr) by auto. cbn [obind]. rewrite (bv_get_ok _ _ _ Wb) by auto. cbn [obind].
      unfold lift_dom_vec. destruct B as (Ld & B'). rewrite Ld. cbn [oassert]. fold h. rewrite num_blocks_blocks.
      rewrite (proj2 (Nat.ltb_lt _ _) Hi). cbn [oassert]. pose proof (get_dom_ok s dim _ _ B U) as G. fold h in G. rewrite P in G. rewrite G. cbn [obind].
      rewrite (blk_length _ _ _ Wb) by auto. rewrite (tiles_sz h (fom_place h) fsz) by auto. rewrite B2. fold h. fold fsz.
      rewrite Nat.eqb_refl. cbn [oassert].
      rewrite (blk_length _ _ _ Wr) by auto. rewrite B3. fold h. rewrite <- P at 1. rewrite (tiles_sz h (place h) rsz) by auto.
      fold rsz. rewrite Nat.eqb_refl. reflexivity.
    - exists V'. split; [exact E|]. split; [eapply wf_fits; eauto|]. split; [auto|].
      intros m v U. pose proof (place_lt h m v U) as Pl. specialize (Hr _ Pl). destruct (um_uv_place h m v U) as (E1 & E2).
      rewrite E1, E2 in Hr. exact Hr.
  Qed.

  (** Entry by entry. *)
  Lemma project_global_ok V junk : fits h (fom_place h) fsz V -> List.length junk = nth (blocks h) (rs_off s) 0 ->
    exists r, project_global s V junk = Ok r /\ fits h (place h) rsz r /\
      forall m v k, unknown h m v -> k < rsz m v ->
        entry (place h) r m v k = rsum (fsz m v) (fun i => (mget (basis_of s m v) i k * entry (fom_place h) V m v i)%R).
  Proof.
    intros FV Lj. destruct (project_global_blocks V junk FV Lj) as (r & E & Fr & _ & Hb). exists r. split; [auto|]. split; [auto|].
    intros m v k U K. rewrite <- (blk_entry r h (place h) rsz m v k Fr (place_onto h) (place_lt h) U K). rewrite (Hb m v U).
    destruct (basis_of_ok s dim _ _ B U) as (_ & B2 & B3). fold h fsz rsz in B2, B3.
    rewrite dm_multt_nth by lia. unfold mat_t_vec. rewrite B2. apply rsum_ext. intros i Hi. f_equal.
    apply (blk_entry V h (fom_place h) fsz m v i FV (fom_place_onto h) (fom_place_lt h) U Hi).
  Qed.

  Lemma lift_global_ok r V : fits h (place h) rsz r -> fits h (fom_place h) fsz V ->
    exists V', lift_global s r V = Ok V' /\ fits h (fom_place h) fsz V' /\
      forall m v i, unknown h m v -> i < fsz m v ->
        entry (fom_place h) V' m v i = rsum (rsz m v) (fun k => (mget (basis_of s m v) i k * entry (place h) r m v k)%R).
  Proof.
    intros Fr FV. destruct (lift_global_blocks r V Fr FV) as (V' & E & FV' & _ & Hb). exists V'. split; [auto|]. split; [auto|].
    intros m v i U Hi. rewrite <- (blk_entry V' h (fom_place h) fsz m v i FV' (fom_place_onto h) (fom_place_lt h) U Hi). rewrite (Hb m v U).
    destruct (basis_of_ok s dim _ _ B U) as (_ & B2 & B3). fold h fsz rsz in B2, B3.
    rewrite dm_mult_nth by lia. unfold mat_vec. rewrite B3. apply rsum_ext. intros k Hk. f_equal.
    apply (blk_entry r h (place h) rsz m v k Fr (place_onto h) (place_lt h) U Hk).
  Qed.

  Lemma round_trip r V junk : fits h (place h) rsz r -> bv_off r = rs_off s -> fits h (fom_place h) fsz V ->
    List.length junk = nth (blocks h) (rs_off s) 0 ->
    (forall m v, unknown h m v -> ortho_cols (basis_of s m v)) ->
    (let* W := lift_global s r V in project_global s W junk) = Ok r.
  Proof.
    intros Fr Or FV Lj On. destruct (lift_global_blocks r V Fr FV) as (W & E & FW & OW & HW). rewrite E. cbn [obind].
    destruct (project_global_blocks W junk FW Lj) as (r' & E' & Fr' & Or' & Hr). rewrite E'. f_equal.
    pose proof (fits_wf _ _ _ _ Fr (place_onto h)) as W1. pose proof (fits_wf _ _ _ _ Fr' (place_onto h)) as W2.
    rewrite Or' in W2. rewrite Or in W1. apply (blk_ext r' r (blocks h) (sz (rs_off s))); auto; [congruence|].
    intros b Hb. destruct (place_onto h b Hb) as (m & v & U & <-). rewrite (Hr m v U), (HW m v U).
    destruct (basis_of_ok s dim _ _ B U) as (_ & B2 & B3). fold h in B2, B3.
    assert (Lb : List.length (blk r (place h m v)) = dm_w (basis_of s m v)).
    { rewrite (blk_length _ _ _ W1) by auto. rewrite B3. apply (tiles_sz h (place h) (basis_size h)); auto. apply B. }
    apply vec_ext; [rewrite dm_multt_length; symmetry; exact Lb|]. intros k Hk. rewrite dm_multt_length in Hk. rewrite dm_multt_nth by auto.
    unfold mat_t_vec. specialize (On m v U). set (Bm := basis_of s m v) in *. set (x := blk r (place h m v)) in *.
    rewrite (rsum_ext _ _ (fun i => rsum (dm_w Bm) (fun j => vnth x j * (mget Bm i k * mget Bm i j))%R)).
    2:{ intros i Hi. rewrite dm_mult_nth by auto. unfold mat_vec. rewrite <- rsum_scal. apply rsum_ext. intros; lra. }
    rewrite rsum_swap. rewrite (rsum_ext _ _ (fun j => vnth x j * (if k =? j then 1 else 0))%R).
    2:{ intros j Hj. rewrite rsum_scal. rewrite (On k j Hk Hj). auto. }
    rewrite (rsum_single _ k); [|auto|intros j Hj Ne; destruct (Nat.eqb_spec k j); [congruence|lra]].
    rewrite Nat.eqb_refl. lra.
  Qed.
End Vectors.
