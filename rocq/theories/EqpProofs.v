(** Proofs about samples and the training system of hyper-reduction. *)
From Coq Require Import Reals List Bool Lia Arith ZArith Lra.
From Verif Require Import Outcome ListLemmas HdfModel LaBase BlockVec LinalgModel LinalgSpec LinalgProofs ItfModel ItfSpec EqpModel EqpSpec.
From Verif Require Import RomProofs RomBasisProofs RomOpProofs MbFlowProofs ItfProofs.
From Verif Require CompProofs MbMiscProofs.
Import ListNotations.
Local Open Scope nat_scope.

(** ** Gathering *)

Lemma concat_nth {A} (ps : list (list A)) d : forall r i, r < List.length ps -> i < List.length (nth r ps []) ->
  nth (list_sum (firstn r (map (@List.length A) ps)) + i) (concat ps) d = nth i (nth r ps []) d.
Proof.
  induction ps as [|p ps IH]; intros r i Hr Hi; cbn [List.length] in Hr; [lia|]. destruct r; cbn [nth map firstn concat] in *.
  - cbn [list_sum fold_right Nat.add]. apply app_nth1. auto.
  - change (list_sum (List.length p :: firstn r (map (@List.length A) ps))) with (List.length p + list_sum (firstn r (map (@List.length A) ps))).
    rewrite app_nth2 by lia. rewrite <- (IH r i) by (auto; lia). f_equal. lia.
Qed.

Lemma concat_len {A} (ps : list (list A)) : List.length (concat ps) = list_sum (map (@List.length A) ps).
Proof. induction ps; auto. cbn [concat map]. rewrite app_length, IHps. reflexivity. Qed.

Lemma copy_in (p g : vec) d : d + List.length p <= List.length g ->
  exists g', ofor (List.length p) (fun g i => let* x := oread p i in owrite g (d + i) x) g = Ok g' /\ List.length g' = List.length g /\
    forall k, vnth g' k = if (d <=? k) && (k <? d + List.length p) then vnth p (k - d) else vnth g k.
Proof.
  intros H.
  destruct (ofor_inv (List.length p) (fun g i => let* x := oread p i in owrite g (d + i) x)
    (fun i (g' : vec) => List.length g' = List.length g /\ forall k, vnth g' k = if (d <=? k) && (k <? d + i) then vnth p (k - d) else vnth g k) g)
    as (g' & E & L & V).
  - split; [auto|]. intros k. destruct (Nat.leb_spec d k), (Nat.ltb_spec k (d + 0)); cbn [andb]; auto; lia.
  - intros i s Hi (L & V). rewrite oread_vnth by auto. cbn [obind]. rewrite owrite_vec by lia. eexists. split; [reflexivity|].
    rewrite upd_length. split; [auto|]. intros k. destruct (Nat.eq_dec k (d + i)) as [->|N].
    + rewrite vnth_upd_eq by lia. destruct (Nat.leb_spec d (d + i)), (Nat.ltb_spec (d + i) (d + S i)); cbn [andb]; try lia. f_equal. lia.
    + rewrite vnth_upd_ne, V by auto. destruct (Nat.leb_spec d k), (Nat.ltb_spec k (d + i)), (Nat.ltb_spec k (d + S i)); cbn [andb]; auto; lia.
  - exists g'. auto.
Qed.

Lemma rank_offsets_ok L : offsets (rank_offsets L) (List.length L) (fun i => nth i L 0).
Proof. apply psum_list_offsets. Qed.

Lemma rank_offsets_nth L r : r <= List.length L -> nth r (rank_offsets L) 0 = list_sum (firstn r L).
Proof. intros H. unfold rank_offsets. rewrite psum_firstn by lia. reflexivity. Qed.

Lemma rank_offsets_last L : last (rank_offsets L) 0 = list_sum L.
Proof. rewrite (offsets_last _ _ _ (rank_offsets_ok L)), rank_offsets_nth by auto. rewrite firstn_all. reflexivity. Qed.

Lemma list_sum_firstn_le L r : list_sum (firstn r L) <= list_sum L.
Proof. rewrite <- (firstn_skipn r L) at 2. rewrite list_sum_app. lia. Qed.

Lemma gather_weights_ok parts junk : List.length junk = list_sum (map (@List.length R) parts) -> gather_weights parts junk = Ok (concat parts).
Proof.
  intros Lj. unfold gather_weights. set (L := map (@List.length R) parts) in *. set (off := rank_offsets L).
  assert (Lo : List.length off = S (List.length L)) by (destruct (rank_offsets_ok L); auto).
  assert (LL : List.length L = List.length parts) by apply map_length.
  assert (Ec : rank_counts off = Ok L).
  { unfold rank_counts. rewrite Lo. replace (S (List.length L) - 1) with (List.length L) by lia. apply MbMiscProofs.omap_seq_list; auto.
    intros i Hi. exists (nth i L 0). split; [apply nth_error_nth'; auto|].
    rewrite !(oread_nth off _ 0) by lia. cbn [obind]. destruct (rank_offsets_ok L) as (_ & _ & Q).
    f_equal. rewrite Nat.add_1_r. specialize (Q i Hi). unfold off. rewrite Q. lia. }
  rewrite Ec. cbn [obind]. unfold off at 1. rewrite rank_offsets_last, Lj, Nat.eqb_refl. cbn [oguard]. unfold allgatherv.
  match goal with |- ofor _ ?f _ = _ => destruct (ofor_inv (List.length parts) f (fun r (g : vec) => List.length g = list_sum L /\
     forall k, k < list_sum (firstn r L) -> vnth g k = vnth (concat parts) k) junk) as (g & E & Lg & V) end.
  - split; [auto|]. cbn. lia.
  - intros r g Hr (Lg & V). pose proof (oread_nth parts r [] Hr) as E0. rw_bind E0. rewrite (oread_nth L r 0), (oread_nth off r 0) by lia. cbn [obind].
    assert (En : nth r L 0 = List.length (nth r parts [])) by (unfold L; rewrite (map_nth (@List.length R) parts []); reflexivity).
    rewrite En, Nat.eqb_refl. cbn [oguard].
    assert (Eo : nth r off 0 = list_sum (firstn r L)) by (apply rank_offsets_nth; lia). rewrite Eo.
    pose proof (list_sum_firstn_S L r ltac:(lia)) as ES. pose proof (list_sum_firstn_le L (S r)) as Le.
    destruct (copy_in (nth r parts []) g (list_sum (firstn r L))) as (g' & E' & L' & V').
    { eapply Nat.le_trans; [|apply Nat.eq_le_incl; symmetry; exact Lg]. rewrite <- En. lia. }
    exists g'. split; [exact E'|]. split; [congruence|]. intros k Hk. rewrite V'.
    destruct (Nat.leb_spec (list_sum (firstn r L)) k); cbn [andb]; [|apply V; lia].
    destruct (Nat.ltb_spec k (list_sum (firstn r L) + List.length (nth r parts []))) as [K|K].
    + unfold vnth. rewrite <- (concat_nth parts 0%R r) by (auto; lia). f_equal. fold L. lia.
    + exfalso. rewrite <- En in K. lia.
  - etransitivity; [exact E|]. f_equal. rewrite <- LL, firstn_all in V. apply vec_ext; [rewrite concat_len; auto|]. intros i Hi. apply V. rewrite <- Lg. exact Hi.
Qed.

(** ** Samples *)

Definition smp (nqe : nat) (w : vec) (i : nat) : sinfo R := {| si_el := Z.of_nat (i / nqe); si_qp := Z.of_nat (i mod nqe); si_qw := vnth w i |}.
Definition kept (w : vec) (i : nat) : bool := above (vnth w i).

Lemma extract_ok nqe w : 0 < nqe -> extract_samples nqe w = Ok (map (smp nqe w) (filter (kept w) (seq 0 (List.length w)))).
Proof.
  intros Hq. unfold extract_samples.
  match goal with |- ofor _ ?f _ = _ => destruct (ofor_inv (List.length w) f (fun i l => l = map (smp nqe w) (filter (kept w) (seq 0 i))) []) as (l & E & El) end.
  - reflexivity.
  - intros i l Hi ->. rewrite oread_vnth by auto. cbn [obind]. rewrite seq_S, filter_app, map_app. cbn [filter Nat.add]. change (kept w i) with (above (vnth w i)).
    destruct (above (vnth w i)).
    + destruct (Nat.eqb_spec nqe 0); [lia|]. cbn [negb oguard]. eexists. split; reflexivity.
    + eexists. split; [reflexivity|]. cbn [map]. rewrite app_nil_r. reflexivity.
  - rewrite E, El. reflexivity.
Qed.

Lemma above_spec w : above w = true <-> (/ 10 ^ 12 < w)%R.
Proof. unfold above. destruct (Rlt_dec (/ 10 ^ 12) w); split; intros; auto; discriminate. Qed.

Lemma ascending_map {A B} (lt : A -> A -> Prop) (lt' : B -> B -> Prop) (f : A -> B) l :
  (forall a b, In a l -> In b l -> lt a b -> lt' (f a) (f b)) -> ascending lt l -> ascending lt' (map f l).
Proof.
  induction l as [|x l IH]; intros H S; cbn [map ascending] in *; auto. destruct S as (S1 & S2). split.
  - intros b Hb. apply in_map_iff in Hb. destruct Hb as (a & <- & Ha). apply H; cbn; auto.
  - apply IH; auto. intros. apply H; cbn; auto.
Qed.

Lemma ascending_filter {A} (lt : A -> A -> Prop) p l : ascending lt l -> ascending lt (filter p l).
Proof.
  induction l as [|x l IH]; intros S; cbn [filter ascending] in *; auto. destruct S as (S1 & S2). destruct (p x); cbn [ascending]; auto.
  split; auto. intros b Hb. apply filter_In in Hb. apply S1, Hb.
Qed.

Lemma ascending_seq n : forall a, ascending lt (seq a n).
Proof. induction n; intros a; cbn [seq ascending]; auto. split; auto. intros b Hb. apply in_seq in Hb. lia. Qed.

Lemma ascending_app {A} (lt : A -> A -> Prop) l x : ascending lt l -> (forall a, In a l -> lt a x) -> ascending lt (l ++ [x]).
Proof.
  induction l as [|y l IH]; intros S H; cbn [app ascending] in *; [split; [intros ? []|exact Logic.I]|]. destruct S as (S1 & S2). split.
  - intros b Hb. apply in_app_or in Hb. destruct Hb as [Hb|[<-|[]]]; [auto|]. apply H. left. auto.
  - apply IH; auto. intros. apply H. right. auto.
Qed.

Lemma ascending_nth {A} (lt : A -> A -> Prop) l d : ascending lt l -> forall i j, i < j < List.length l -> lt (nth i l d) (nth j l d).
Proof.
  induction l as [|x l IH]; intros S i j H; cbn [List.length] in H; [lia|]. destruct S as (S1 & S2). destruct j; [lia|]. destruct i; cbn [nth].
  - apply S1, nth_In. lia.
  - apply IH; auto. lia.
Qed.

Lemma smp_lt nqe w a b : 0 < nqe -> a < b -> sample_lt (smp nqe w a) (smp nqe w b).
Proof.
  intros Hq H. unfold sample_lt, smp. cbn [si_el si_qp]. assert (Ha : a = nqe * (a / nqe) + a mod nqe) by (apply Nat.div_mod; lia).
  assert (Hb : b = nqe * (b / nqe) + b mod nqe) by (apply Nat.div_mod; lia).
  pose proof (Nat.mod_upper_bound a nqe ltac:(lia)). pose proof (Nat.mod_upper_bound b nqe ltac:(lia)).
  assert (a / nqe <= b / nqe) by (apply Nat.div_le_mono; lia). destruct (Nat.eq_dec (a / nqe) (b / nqe)) as [E|N]; [right|left]; [|lia].
  split; [lia|]. rewrite E in Ha. lia.
Qed.

Definition rsmp (nqe : nat) (ids : list nat) (w : vec) (i : nat) : sinfo R :=
  {| si_el := Z.of_nat (nth (i / nqe) ids 0); si_qp := Z.of_nat (i mod nqe); si_qw := vnth w i |}.

Lemma kept_range nqe (ids : list nat) w i : List.length w = List.length ids * nqe -> In i (filter (kept w) (seq 0 (List.length w))) ->
  i / nqe < List.length ids /\ i mod nqe < nqe /\ i = i / nqe * nqe + i mod nqe.
Proof. intros Lp Hi. apply filter_In in Hi. destruct Hi as (Hi & _). apply in_seq in Hi. apply lin_onto. rewrite <- Lp. lia. Qed.

Lemma samples_eq nqe parts ids junk : 0 < nqe -> List.length (concat parts) = List.length ids * nqe ->
  List.length junk = List.length (concat parts) ->
  solution_samples nqe parts (Some ids) junk = Ok (map (rsmp nqe ids (concat parts)) (filter (kept (concat parts)) (seq 0 (List.length (concat parts))))).
Proof.
  intros Hq Lp Lj. unfold solution_samples. rewrite concat_len in Lj. rewrite gather_weights_ok by auto. cbn [obind].
  set (w := concat parts) in *. rewrite extract_ok by auto. cbn [obind]. unfold rename_samples.
  set (g := fun s : sinfo R => {| si_el := Z.of_nat (nth (Z.to_nat (si_el s)) ids 0); si_qp := si_qp s; si_qw := si_qw s |}).
  rewrite (omap_map_ok _ g).
  2:{ intros s Hs. apply in_map_iff in Hs. destruct Hs as (i & <- & Hi). apply (kept_range nqe ids w) in Hi; auto. unfold smp, g. cbn [si_el si_qp si_qw].
      unfold zread. destruct (Z.ltb_spec (Z.of_nat (i / nqe)) 0); [lia|]. rewrite Nat2Z.id. rewrite (oread_nth ids _ 0) by apply Hi. reflexivity. }
  f_equal. rewrite map_map. apply map_ext. intros i. unfold g, smp, rsmp. cbn [si_el si_qp si_qw]. rewrite Nat2Z.id. reflexivity.
Qed.

Lemma samples_ok nqe parts ids junk : 0 < nqe -> List.length (concat parts) = List.length ids * nqe -> ascending lt ids ->
  List.length junk = List.length (concat parts) ->
  exists l, solution_samples nqe parts (Some ids) junk = Ok l /\
    (forall s, In s l <-> exists e m, e < List.length ids /\ m < nqe /\ (/ 10 ^ 12 < vnth (concat parts) (e * nqe + m))%R /\
       s = {| si_el := Z.of_nat (nth e ids 0); si_qp := Z.of_nat m; si_qw := vnth (concat parts) (e * nqe + m) |}) /\
    ascending sample_lt l.
Proof.
  intros Hq Lp A Lj. rewrite samples_eq by auto. set (w := concat parts) in *.
  pose proof (fun i => kept_range nqe ids w i Lp) as Hr.
  eexists. split; [reflexivity|]. split.
  - intros s. rewrite in_map_iff. split.
    + intros (i & <- & Hi). pose proof (Hr i Hi) as (H1 & H2 & H3). apply filter_In in Hi. destruct Hi as (Hi & Hk). apply above_spec in Hk.
      exists (i / nqe), (i mod nqe). rewrite <- H3. split; [auto|]. split; [auto|]. split; [auto|]. reflexivity.
    + intros (e & m & He & Hm & Hw & ->). exists (e * nqe + m). split.
      * unfold rsmp. rewrite lin_div, lin_mod by auto. reflexivity.
      * apply filter_In. split; [apply in_seq; pose proof (lin_lt e m _ _ He Hm); lia|]. apply above_spec. auto.
  - apply (ascending_map lt); [|apply ascending_filter, ascending_seq]. intros a b Ha Hb L.
    pose proof (Hr a Ha) as (A1 & A2 & A3). pose proof (Hr b Hb) as (B1 & B2 & B3).
    pose proof (smp_lt nqe w a b Hq L) as Q. unfold sample_lt, rsmp, smp in *. cbn [si_el si_qp] in *.
    destruct Q as [Q|(Q & Q')]; [left|right].
    + apply Nat2Z.inj_lt. apply ascending_nth; auto. lia.
    + split; [|auto]. f_equal. f_equal. lia.
Qed.

Lemma samples_domain nqe parts junk ne : 0 < nqe -> List.length (concat parts) = ne * nqe -> List.length junk = List.length (concat parts) ->
  solution_samples nqe parts None junk = solution_samples nqe parts (Some (seq 0 ne)) junk.
Proof.
  intros Hq Lp Lj. unfold solution_samples. rewrite concat_len in Lj. rewrite gather_weights_ok by auto. cbn [obind].
  rewrite extract_ok by auto. cbn [obind]. unfold rename_samples. rewrite (omap_map_ok _ (fun s => s)); [rewrite map_id; reflexivity|].
  intros s Hs. apply in_map_iff in Hs. destruct Hs as (i & <- & Hi). apply filter_In in Hi. destruct Hi as (Hi & _). apply in_seq in Hi.
  rewrite Lp in Hi. destruct (lin_onto i ne nqe ltac:(lia)) as (H1 & _). unfold smp. cbn [si_el si_qp si_qw].
  unfold zread. destruct (Z.ltb_spec (Z.of_nat (i / nqe)) 0); [lia|]. rewrite Nat2Z.id. rewrite (oread_nth _ _ 0) by (rewrite seq_length; auto).
  cbn [obind]. rewrite seq_nth by auto. reflexivity.
Qed.

(** ** Places *)

Lemma filter_seq_ascending p n : ascending lt (filter p (seq 0 n)).
Proof. apply ascending_filter, ascending_seq. Qed.

Definition has_site (st : sites) (f : nat) : bool := match nth f st None with Some _ => true | None => false end.

Lemma has_site_spec st f : f < List.length st -> (has_site st f = true <-> exists s, at_site st f s).
Proof.
  intros H. unfold has_site, at_site. rewrite (nth_error_nth' st None) by auto. destruct (nth f st None); split; intros Q; eauto; try discriminate.
  destruct Q as (s & Q). discriminate.
Qed.

Lemma interior_faces_ok st : interior_faces st = Ok (filter (has_site st) (seq 0 (List.length st))).
Proof.
  unfold interior_faces.
  match goal with |- ofor _ ?f _ = _ => destruct (ofor_inv (List.length st) f (fun i l => l = filter (has_site st) (seq 0 i)) []) as (l & E & El) end.
  - reflexivity.
  - intros i l Hi ->. rewrite (oread_nth st i None) by auto. cbn [obind]. rewrite seq_S, filter_app. cbn [filter Nat.add]. assert (Eh : has_site st i = match nth i st None with Some _ => true | None => false end) by reflexivity. rewrite Eh.
    destruct (nth i st None); eexists; (split; [reflexivity|]); rewrite ?app_nil_r; reflexivity.
  - rewrite E, El. reflexivity.
Qed.

Lemma bdr_marker_ok nattr m : (forall mk, m = Some mk -> nattr <= List.length mk) ->
  exists l, bdr_marker nattr m = Ok l /\ List.length l = nattr /\
    forall i, i < nattr -> nth i l 0%Z = match m with None => 1%Z | Some mk => nth i mk 0%Z end.
Proof.
  intros H. destruct m as [mk|]; cbn [bdr_marker].
  - specialize (H mk eq_refl). rewrite (omap_map_ok _ (fun i => nth i mk 0%Z)).
    + eexists. split; [reflexivity|]. rewrite map_length, seq_length. split; [auto|]. intros i Hi. apply nth_map_seq; auto.
    + intros i Hi. apply in_seq in Hi. rewrite (oread_nth mk i 0%Z) by lia. reflexivity.
  - eexists. split; [reflexivity|]. rewrite repeat_length. split; [auto|]. intros i Hi. rewrite nth_repeat_lt by auto. reflexivity.
Qed.

Definition marked (attr mark : list Z) (b : nat) : bool := negb (nth (Z.to_nat (nth b attr 0%Z - 1)) mark 0%Z =? 0)%Z.

Lemma bdr_faces_ok st attr mark : List.length attr = List.length st -> (forall a, In a attr -> (1 <= a <= Z.of_nat (List.length mark))%Z) ->
  bdr_faces st attr mark = Ok (filter (fun b => marked attr mark b && has_site st b) (seq 0 (List.length st))).
Proof.
  intros La Ha. unfold bdr_faces. set (p := fun b => marked attr mark b && has_site st b).
  match goal with |- ofor _ ?f _ = _ => destruct (ofor_inv (List.length st) f (fun i l => l = filter p (seq 0 i)) []) as (l & E & El) end.
  - reflexivity.
  - intros i l Hi ->. rewrite (oread_nth attr i 0%Z) by lia. cbn [obind]. assert (Hm : In (nth i attr 0%Z) attr) by (apply nth_In; lia). apply Ha in Hm.
    unfold zread. destruct (Z.ltb_spec (nth i attr 0%Z - 1) 0); [lia|]. rewrite (oread_nth mark _ 0%Z) by lia. cbn [obind].
    rewrite seq_S, filter_app. cbn [filter Nat.add].
    assert (Ep : p i = negb (nth (Z.to_nat (nth i attr 0%Z - 1)) mark 0%Z =? 0)%Z && has_site st i) by reflexivity. rewrite Ep.
    destruct (nth (Z.to_nat (nth i attr 0%Z - 1)) mark 0%Z =? 0)%Z; cbn [negb andb]; [eexists; split; [reflexivity|]; rewrite app_nil_r; reflexivity|].
    rewrite (oread_nth st i None) by auto. cbn [obind]. unfold has_site.
    destruct (nth i st None); eexists; (split; [reflexivity|]); rewrite ?app_nil_r; reflexivity.
  - rewrite E, El. reflexivity.
Qed.
