From Coq Require Import ZArith List Bool Lia Reals Lra ZifyBool ZifyNat.
From Verif Require Import Outcome ListLemmas SamplingModel SamplingSpec.
Import ListNotations.
Open Scope Z_scope.
Ltac Zify.zify_post_hook ::= Z.div_mod_to_equations.

(** ** Distribution *)

Lemma partial_sum_length l : forall a, length (partial_sum a l) = length l.
Proof. induction l as [|x t IH]; simpl; intros; auto. Qed.

(** nth offset in closed form *)
Definition off_closed (q rem : Z) (r : nat) : Z := Z.of_nat r * q + Z.min (Z.of_nat r) rem.

Definition inc (q rem : Z) (r : nat) : Z := q + (if Z.of_nat r <? rem then 1 else 0).

Lemma nth_error_partial_sum_seq q rem : forall n k j, 0 <= rem -> (j < n)%nat ->
  nth_error (partial_sum (off_closed q rem k) (map (inc q rem) (seq k n))) j
  = Some (off_closed q rem (S k + j)).
Proof.
  induction n as [|n IH]; intros k j Hr Hj; [lia|].
  assert (E : off_closed q rem k + inc q rem k = off_closed q rem (S k)).
  { unfold off_closed, inc; destruct (Z.ltb_spec (Z.of_nat k) rem); lia. }
  cbn [seq map partial_sum]. rewrite E. destruct j as [|j].
  - simpl. do 2 f_equal. lia.
  - cbn [nth_error]. rewrite IH by lia. do 2 f_equal; lia.
Qed.

Lemma add_remainder_closed q rem : forall n r l,
  (S r + n <= S l)%nat ->
  (forall k, (k < r)%nat -> Z.of_nat k <? rem = true) ->
  Z.of_nat (r + n) = rem ->
  add_remainder (0 :: map (fun k => q + (if (k <? r)%nat then 1 else 0)) (seq 0 l)) r n
  = Ok (0 :: map (inc q rem) (seq 0 l)).
Proof.
  induction n as [|n IH]; intros r l Hl Hk Hrem.
  - cbn [add_remainder]. do 2 f_equal. apply map_ext_in. intros a Ha. unfold inc.
    destruct (Nat.ltb_spec a r), (Z.ltb_spec (Z.of_nat a) rem); lia.
  - cbn [add_remainder].
    set (L := map (fun k => q + (if (k <? r)%nat then 1 else 0)) (seq 0 l)).
    assert (EL : nth_error L r = Some (q + 0)).
    { unfold L. rewrite nth_error_map, (nth_error_nth' _ 0%nat) by (rewrite seq_length; lia).
      rewrite seq_nth by lia. simpl. rewrite Nat.ltb_irrefl. reflexivity. }
    unfold oread. replace (1 + r)%nat with (S r) by lia. cbn [nth_error]. rewrite EL. cbn [obind].
    unfold owrite.
    assert (HL : length L = l) by (unfold L; rewrite map_length, seq_length; auto).
    cbn [length]. rewrite HL.
    destruct (Nat.ltb_spec (S r) (S l)); [|lia]. cbn [obind upd].
    replace (upd L r (q + 0 + 1)) with (map (fun k => q + (if (k <? S r)%nat then 1 else 0)) (seq 0 l)).
    + apply IH; try lia; intros; lia.
    + apply nth_error_ext. intros j.
      destruct (Nat.eq_dec r j) as [->|Hne].
      * rewrite nth_error_upd_eq by lia.
        rewrite nth_error_map, (nth_error_nth' _ 0%nat) by (rewrite seq_length; lia).
        rewrite seq_nth by lia. cbn [option_map]. f_equal.
        replace (0 + j <? S j)%nat with true by lia. lia.
      * rewrite nth_error_upd_ne by auto. unfold L. rewrite !nth_error_map.
        destruct (nth_error (seq 0 l) j) as [x|] eqn:Ex; simpl; auto.
        assert (x = j).
        { apply nth_error_nth with (d := 0%nat) in Ex as Ex'.
          assert (j < length (seq 0 l))%nat by (apply nth_error_Some; congruence).
          rewrite seq_length in H0. rewrite seq_nth in Ex' by lia. lia. }
        subst x. f_equal. replace (j <? S r)%nat with (j <? r)%nat by lia. reflexivity.
Qed.

Lemma distribute_closed total procs : 0 <= total -> (0 < procs)%nat ->
  exists offs, distribute_samples total procs = Ok offs /\ length offs = S procs /\
    forall r, (r <= procs)%nat ->
      nth_error offs r = Some (off_closed (total / Z.of_nat procs) (total mod Z.of_nat procs) r).
Proof.
  intros Ht Hp. unfold distribute_samples.
  set (P := Z.of_nat procs). assert (HP : 0 < P) by lia.
  destruct (Z.eqb_spec P 0); [lia|]. cbn [negb oguard].
  rewrite Z.quot_div_nonneg, Z.rem_mod_nonneg by lia.
  set (q := total / P). set (rem := total mod P).
  assert (Hrem : 0 <= rem < P) by (unfold rem; apply Z.mod_pos_bound; lia).
  assert (Htot : total = P * q + rem) by (unfold q, rem; apply Z.div_mod; lia).
  cbn [repeat]. unfold owrite. cbn [length Nat.ltb Nat.leb obind upd].
  replace (0 :: repeat q procs)
    with (0 :: map (fun k => q + (if (k <? 0)%nat then 1 else 0)) (seq 0 procs)).
  2:{ f_equal. apply nth_error_ext. intros j. rewrite nth_error_map.
      destruct (Nat.lt_ge_cases j procs) as [Hj|Hj].
      - rewrite (nth_error_nth' (seq 0 procs) 0%nat) by (rewrite seq_length; lia).
        rewrite (nth_error_nth' (repeat q procs) q) by (rewrite repeat_length; lia).
        rewrite nth_repeat. simpl. f_equal. lia.
      - rewrite !(proj2 (nth_error_None _ _)); auto.
        + rewrite repeat_length; lia.
        + rewrite seq_length; lia. }
  rewrite (add_remainder_closed q rem) by lia.
  cbn [obind]. set (offs := partial_sum 0 _).
  assert (Hlen : length offs = S procs).
  { unfold offs. rewrite partial_sum_length. simpl. rewrite map_length, seq_length. auto. }
  assert (Hnth : forall r, (r <= procs)%nat -> nth_error offs r = Some (off_closed q rem r)).
  { intros r Hr. unfold offs. cbn [partial_sum]. destruct r as [|r].
    - simpl. f_equal. unfold off_closed. lia.
    - cbn [nth_error]. replace (0 + 0) with (off_closed q rem 0) by (unfold off_closed; lia).
      rewrite nth_error_partial_sum_seq by lia. do 2 f_equal. }
  unfold oread. rewrite !Hnth by lia. cbn [obind].
  assert (E0 : off_closed q rem 0 = 0) by (unfold off_closed; lia).
  assert (EP : off_closed q rem procs = total) by (unfold off_closed; fold P; lia).
  rewrite E0, EP, !Z.eqb_refl. cbn [oassert].
  exists offs. repeat split; auto.
Qed.

Lemma off_closed_mono q rem a b : 0 <= q -> 0 <= rem -> (a <= b)%nat ->
  off_closed q rem a <= off_closed q rem b.
Proof. unfold off_closed; intros; nia. Qed.

Lemma off_closed_find q rem : 0 <= q -> 0 <= rem -> forall n i, 0 <= i < off_closed q rem n ->
  exists r, (r < n)%nat /\ off_closed q rem r <= i < off_closed q rem (S r).
Proof.
  intros Hq Hr. induction n as [|n IH]; intros i Hi.
  - unfold off_closed in Hi; lia.
  - destruct (Z.lt_ge_cases i (off_closed q rem n)) as [H|H].
    + destruct (IH i) as (r & Hr1 & Hr2); [lia|]. exists r; split; [lia|auto].
    + exists n; split; [lia|lia].
Qed.

Lemma distribution_fair total procs : 0 <= total -> (0 < procs)%nat ->
  exists offs, distribute_samples total procs = Ok offs /\
    (forall r i, (r < procs)%nat -> exists b, is_my_job offs r i = Ok b) /\
    fair_partition total procs (fun r i => is_my_job offs r i = Ok true).
Proof.
  intros Ht Hp. destruct (distribute_closed total procs Ht Hp) as (offs & E & Hlen & Hnth).
  exists offs; split; [exact E|].
  set (P := Z.of_nat procs) in *. set (q := total / P) in *. set (rem := total mod P) in *.
  assert (HP : 0 < P) by lia.
  assert (Hrem : 0 <= rem < P) by (unfold rem; apply Z.mod_pos_bound; lia).
  assert (Htot : total = P * q + rem) by (unfold q, rem; apply Z.div_mod; lia).
  assert (Hq : 0 <= q) by (apply Z.div_pos; lia).
  assert (EP : off_closed q rem procs = total) by (unfold off_closed; fold P; lia).
  assert (E0 : off_closed q rem 0 = 0) by (unfold off_closed; lia).
  assert (Hjob : forall r i, (r < procs)%nat ->
     is_my_job offs r i = Ok ((off_closed q rem r <=? i) && (i <? off_closed q rem (S r)))).
  { intros r i Hr. unfold is_my_job, oread. rewrite !Hnth by lia. reflexivity. }
  assert (Hown : forall r i, (r < procs)%nat ->
     (is_my_job offs r i = Ok true <-> off_closed q rem r <= i < off_closed q rem (S r))).
  { intros r i Hr. rewrite Hjob by auto. split; intros H.
    - inversion H. lia.
    - f_equal. lia. }
  split; [intros r i Hr; rewrite Hjob by auto; eauto|].
  constructor.
  - intros i Hi. destruct (off_closed_find q rem) with (n := procs) (i := i) as (r & Hr & Hi'); try lia.
    exists r; split; [split; [auto|apply Hown; auto]|].
    intros r' Hr' Hi2. apply Hown in Hi2; auto.
    destruct (lt_eq_lt_dec r r') as [[Hlt|]|Hlt]; auto; exfalso.
    + pose proof (off_closed_mono q rem (S r) r' Hq ltac:(lia) ltac:(lia)). lia.
    + pose proof (off_closed_mono q rem (S r') r Hq ltac:(lia) ltac:(lia)). lia.
  - intros r i Hr Hi. apply Hown in Hi; auto.
    pose proof (off_closed_mono q rem (S r) procs Hq ltac:(lia) ltac:(lia)).
    pose proof (off_closed_mono q rem 0 r Hq ltac:(lia) ltac:(lia)). lia.
  - intros r1 r2 i1 i2 Hr H1 H2. apply Hown in H1; [|lia]. apply Hown in H2; [|lia].
    pose proof (off_closed_mono q rem (S r1) r2 Hq ltac:(lia) ltac:(lia)). lia.
  - exists (off_closed q rem), (fun r => off_closed q rem (S r) - off_closed q rem r). split.
    + intros r Hr. pose proof (off_closed_mono q rem r (S r) Hq ltac:(lia) ltac:(lia)).
      split; [lia|]. intros i. rewrite Hown by auto. lia.
    + intros r1 r2 H1 H2. unfold off_closed. lia.
Qed.

(** ** Sample index codec *)

Local Arguments grid_size : simpl never.

Lemma total_loop_ok l : forall a t, ofold (fun acc s => oint (acc * s)) l a = Ok t -> t = a * grid_size l.
Proof.
  induction l as [|s l IH]; simpl; intros a t H.
  - inversion H. unfold grid_size; simpl. lia.
  - unfold oint in H at 1. destruct (int_ok (a * s)); simpl in H; [|discriminate].
    apply IH in H. subst t. unfold grid_size; simpl. ring.
Qed.

Lemma sizes_pos_ok l : ofold (fun _ s => oassert (0 <? s) (Ok tt)) l tt = Ok tt <-> Forall (fun s => 0 < s) l.
Proof.
  induction l as [|s l IH]; simpl.
  - split; auto.
  - destruct (Z.ltb_spec 0 s); simpl.
    + rewrite IH. split; intros H1; [constructor; auto|inversion H1; auto].
    + split; [discriminate|]. intros H1; inversion H1; lia.
Qed.

Lemma set_param_space_sizes_ok sizes total :
  set_param_space_sizes sizes = Ok total ->
  sizes <> [] /\ Forall (fun s => 0 < s) sizes /\ total = grid_size sizes.
Proof.
  unfold set_param_space_sizes. intros H.
  apply oassert_ok in H as [Hn H]. apply obind_ok in H as ([] & Hp & H).
  apply sizes_pos_ok in Hp. apply total_loop_ok in H.
  split; [destruct sizes; [simpl in Hn; discriminate|discriminate]|]. split; auto. lia.
Qed.

Lemma grid_size_pos l : Forall (fun s => 0 < s) l -> 0 < grid_size l.
Proof. induction 1; unfold grid_size in *; simpl; [lia|]. nia. Qed.

Lemma grid_size_cons s l : grid_size (s :: l) = s * grid_size l.
Proof. reflexivity. Qed.

Lemma grid_position_bound sizes idx : in_grid sizes idx -> 0 <= grid_position sizes idx < grid_size sizes.
Proof.
  induction 1 as [|s i ss is Hi H IH]; simpl; [unfold grid_size; simpl; lia|].
  rewrite grid_size_cons.
  split; [nia|]. nia.
Qed.

Lemma in_grid_pos sizes idx : in_grid sizes idx -> Forall (fun s => 0 < s) sizes.
Proof. induction 1; constructor; auto; lia. Qed.

Lemma in_grid_length sizes idx : in_grid sizes idx -> length idx = length sizes.
Proof. intros H; induction H; simpl; auto. Qed.

(** no overflow, and the value is acc * size + position *)
Lemma encode_loop_ok ss is : in_grid ss is -> forall acc, 0 <= acc ->
  (acc + 1) * grid_size ss <= 2147483648 ->
  encode_loop ss is acc = Ok (acc * grid_size ss + grid_position ss is).
Proof.
  induction 1 as [|s i ss is Hi Hg IH]; intros acc Ha Hb.
  - simpl. unfold grid_size; simpl. f_equal; lia.
  - simpl. rewrite grid_size_cons in Hb.
    pose proof (grid_size_pos ss (in_grid_pos _ _ Hg)) as Hpos.
    assert (Hs : (acc + 1) * s <= 2147483648) by nia.
    assert (E1 : int_ok (acc * s) = true) by (unfold int_ok; nia).
    assert (E2 : int_ok (acc * s + i) = true) by (unfold int_ok; nia).
    unfold oint. rewrite E1. simpl. rewrite E2. simpl.
    rewrite IH; [f_equal; rewrite grid_size_cons; ring| nia | nia].
Qed.

Lemma encode_in_grid sizes idx total :
  set_param_space_sizes sizes = Ok total -> total <= 2147483647 ->
  in_grid sizes idx ->
  encode_index sizes total idx = Ok (grid_position sizes idx).
Proof.
  intros Hs Hmax Hg. apply set_param_space_sizes_ok in Hs as (Hne & Hpos & Htot).
  unfold encode_index. rewrite (in_grid_length _ _ Hg), Nat.eqb_refl. cbn [oassert].
  destruct Hg as [|s i ss is Hi Hg]; [congruence|].
  pose proof (grid_size_pos ss (in_grid_pos _ _ Hg)) as Hp.
  rewrite grid_size_cons in Htot.
  rewrite encode_loop_ok by (auto; nia). cbn [obind].
  pose proof (grid_position_bound (s :: ss) (i :: is)) as Hb.
  specialize (Hb (Forall2_cons _ _ Hi Hg)). rewrite grid_size_cons in Hb. simpl in Hb.
  simpl grid_position.
  replace ((0 <=? i * grid_size ss + grid_position ss is) &&
           (i * grid_size ss + grid_position ss is <? total)) with true by lia.
  reflexivity.
Qed.

Lemma total_loop_int l : forall a t, int_ok a = true ->
  ofold (fun acc s => oint (acc * s)) l a = Ok t -> int_ok t = true.
Proof.
  induction l as [|s l IH]; simpl; intros a t Ha H; [inversion H; subst; auto|].
  unfold oint in H at 1. destruct (int_ok (a * s)) eqn:E; simpl in H; [|discriminate]. eauto.
Qed.

Lemma set_param_space_sizes_int sizes total :
  set_param_space_sizes sizes = Ok total -> total <= 2147483647.
Proof.
  unfold set_param_space_sizes. intros H.
  apply oassert_ok in H as [Hn H]. apply obind_ok in H as ([] & Hp & H).
  apply total_loop_int in H; [unfold int_ok in H; lia|reflexivity].
Qed.

Fixpoint decode_spec (sizes : list Z) (k : Z) : list Z :=
  match sizes with
  | [] => []
  | s :: ss => (k / grid_size ss) mod s :: decode_spec ss k
  end.

Lemma decode_loop_ok : forall rs tmp acc, Forall (fun s => 0 < s) rs -> 0 <= tmp ->
  decode_loop rs tmp acc = Ok (decode_spec (rev rs) tmp ++ acc).
Proof.
  induction rs as [|s rs IH]; intros tmp acc Hf Ht; [reflexivity|].
  inversion Hf as [|? ? Hs Hf']; subst. cbn [decode_loop].
  destruct (Z.eqb_spec s 0); [lia|]. cbn [negb oguard].
  rewrite Z.rem_mod_nonneg by lia.
  pose proof (Z.mod_pos_bound tmp s Hs).
  replace ((0 <=? tmp mod s) && (tmp mod s <? s)) with true by lia. cbn [oassert].
  assert (Ed : (tmp - tmp mod s) = tmp / s * s) by (pose proof (Z.div_mod tmp s); lia).
  rewrite Ed, Z.quot_mul by lia.
  rewrite IH; auto; [|apply Z.div_pos; lia].
  cbn [rev]. f_equal.
  assert (G : forall l, Forall (fun s => 0 < s) l ->
     decode_spec (l ++ [s]) tmp = decode_spec l (tmp / s) ++ [tmp mod s]).
  { induction l as [|x l IHl]; intros Hl; simpl.
    - unfold grid_size; simpl. rewrite Z.div_1_r. auto.
    - inversion Hl; subst. rewrite IHl by auto. f_equal.
      assert (Eg : grid_size (l ++ [s]) = s * grid_size l).
      { clear. induction l as [|y l IHl]; simpl; [unfold grid_size; simpl; lia|].
        rewrite !grid_size_cons, IHl. ring. }
      rewrite Eg, Z.div_div by (try lia; apply grid_size_pos; auto). reflexivity. }
  rewrite G, <- app_assoc; auto.
  apply Forall_rev; auto.
Qed.

Lemma decode_index_ok sizes k : Forall (fun s => 0 < s) sizes -> 0 <= k ->
  decode_index sizes k = Ok (decode_spec sizes k).
Proof.
  intros Hf Hk. unfold decode_index. rewrite decode_loop_ok; auto.
  - rewrite rev_involutive, app_nil_r. auto.
  - apply Forall_rev; auto.
Qed.

Lemma decode_spec_in_grid sizes k : Forall (fun s => 0 < s) sizes -> in_grid sizes (decode_spec sizes k).
Proof. induction 1; simpl; constructor; auto. apply Z.mod_pos_bound; auto. Qed.

Lemma decode_spec_position sizes : Forall (fun s => 0 < s) sizes -> forall k, 0 <= k ->
  grid_position sizes (decode_spec sizes k) = k mod grid_size sizes.
Proof.
  induction 1 as [|s ss Hs Hf IH]; intros k Hk; simpl.
  - unfold grid_size; simpl. rewrite Z.mod_1_r; auto.
  - rewrite IH by auto. rewrite grid_size_cons.
    pose proof (grid_size_pos _ Hf) as Hg.
    rewrite (Z.mul_comm s), Z.rem_mul_r by lia. lia.
Qed.

Lemma decode_spec_of_position sizes idx : in_grid sizes idx -> forall m, 0 <= m ->
  decode_spec sizes (m * grid_size sizes + grid_position sizes idx) = idx.
Proof.
  induction 1 as [|s i ss is Hi Hg IH]; intros m Hm; simpl; auto.
  pose proof (grid_size_pos _ (in_grid_pos _ _ Hg)) as Hp.
  pose proof (grid_position_bound _ _ Hg) as Hb.
  rewrite grid_size_cons.
  replace (m * (s * grid_size ss) + (i * grid_size ss + grid_position ss is))
    with ((m * s + i) * grid_size ss + grid_position ss is) by ring.
  f_equal.
  - rewrite Z.div_add_l, (Z.div_small (grid_position ss is)) by lia.
    rewrite Z.add_0_r, Z.add_comm, Z.mod_add, Z.mod_small; lia.
  - apply IH. nia.
Qed.

Lemma index_codec sizes total : set_param_space_sizes sizes = Ok total ->
  total = grid_size sizes /\
  (forall k, 0 <= k < total -> exists idx,
      decode_index sizes k = Ok idx /\ in_grid sizes idx /\ encode_index sizes total idx = Ok k) /\
  (forall idx, in_grid sizes idx -> exists k,
      encode_index sizes total idx = Ok k /\ k = grid_position sizes idx /\ 0 <= k < total /\
      decode_index sizes k = Ok idx).
Proof.
  intros Hs. pose proof (set_param_space_sizes_int _ _ Hs) as Hmax.
  pose proof (set_param_space_sizes_ok _ _ Hs) as (Hne & Hpos & Htot).
  split; [auto|]. split.
  - intros k Hk. exists (decode_spec sizes k).
    rewrite decode_index_ok by (auto; lia).
    pose proof (decode_spec_in_grid sizes k Hpos) as Hg. repeat split; auto.
    rewrite encode_in_grid by auto. f_equal. rewrite decode_spec_position by (auto; lia).
    apply Z.mod_small; lia.
  - intros idx Hg. exists (grid_position sizes idx).
    pose proof (grid_position_bound _ _ Hg) as Hb.
    rewrite encode_in_grid by auto. repeat split; try lia.
    rewrite decode_index_ok by (auto; lia). f_equal.
    apply (decode_spec_of_position _ _ Hg 0); lia.
Qed.

(** C03: rejection *)
Lemma encode_rejects_wrong_linear sizes total idx k :
  encode_index sizes total idx = Ok k -> 0 <= k < total.
Proof.
  unfold encode_index. intros H. apply oassert_ok in H as [_ H].
  destruct sizes as [|s ss], idx as [|i is]; try discriminate.
  apply obind_ok in H as (g & _ & H). apply oassert_ok in H as [Hb H]. inversion H; subst. lia.
Qed.

Lemma encode_rejects_length sizes total idx :
  length idx <> length sizes -> encode_index sizes total idx = Abort.
Proof.
  intros H. unfold encode_index. destruct (Nat.eqb_spec (length idx) (length sizes)); [lia|reflexivity].
Qed.

Lemma random_codec nparams total : (0 < nparams)%nat ->
  (forall k idx, random_decode_index nparams total k = Ok idx ->
     length idx = nparams /\ 0 <= k < total /\ random_encode_index nparams total idx = Ok k) /\
  (forall idx k, random_encode_index nparams total idx = Ok k ->
     0 <= k < total /\ random_decode_index nparams total k = Ok idx) /\
  (forall k, ~ (0 <= k < total) -> random_decode_index nparams total k = Abort).
Proof.
  intros Hn.
  assert (Hall : forall g l, ofold (fun _ i => oassert (g =? i) (Ok tt)) l tt = Ok tt <-> Forall (fun i => g = i) l).
  { intros g l. induction l as [|i l IH]; simpl; [split; auto|].
    destruct (Z.eqb_spec g i); simpl.
    - rewrite IH; split; intros H; [constructor; auto|inversion H; auto].
    - split; [discriminate|]. intros H; inversion H; contradiction. }
  assert (Hrep : forall (g : Z) l, Forall (fun i => g = i) l -> l = repeat g (length l)).
  { intros g l; induction 1; simpl; congruence. }
  repeat split.
  - unfold random_decode_index in H. apply oassert_ok in H as [_ H]. inversion H; subst. apply repeat_length.
  - unfold random_decode_index in H. apply oassert_ok in H as [H _]. lia.
  - unfold random_decode_index in H. apply oassert_ok in H as [H _]. lia.
  - unfold random_decode_index in H. apply oassert_ok in H as [Hb H]. inversion H; subst.
    unfold random_encode_index. rewrite repeat_length, Nat.eqb_refl. cbn [oassert].
    destruct nparams as [|n]; [lia|]. cbn [repeat].
    rewrite (proj2 (Hall k (repeat k n))).
    + cbn [obind]. rewrite Hb. reflexivity.
    + apply Forall_forall. intros x Hx. symmetry. apply repeat_spec in Hx. auto.
  - unfold random_encode_index in H. apply oassert_ok in H as [_ H].
    destruct idx; [discriminate|]. apply obind_ok in H as ([] & _ & H).
    apply oassert_ok in H as [Hb H]. inversion H; subst. lia.
  - unfold random_encode_index in H. apply oassert_ok in H as [_ H].
    destruct idx; [discriminate|]. apply obind_ok in H as ([] & _ & H).
    apply oassert_ok in H as [Hb H]. inversion H; subst. lia.
  - unfold random_encode_index in H. apply oassert_ok in H as [Hl H].
    destruct idx as [|g rest]; [discriminate|]. apply obind_ok in H as ([] & Ha & H).
    apply oassert_ok in H as [Hb H]. inversion H; subst.
    unfold random_decode_index. rewrite Hb. cbn [oassert]. f_equal.
    apply Hall in Ha. apply Nat.eqb_eq in Hl. simpl in Hl. subst nparams.
    cbn [repeat]. f_equal. symmetry. apply Hrep; auto.
  - intros k Hk. unfold random_decode_index.
    replace ((0 <=? k) && (k <? total)) with false by lia. reflexivity.
Qed.

(** ** Parameter values *)

Lemma get_integer_range minval maxval size i v :
  minval <= maxval -> get_integer minval maxval size i = Ok v ->
  minval <= v <= maxval /\ (i = 0 -> v = minval) /\
  (i = size - 1 -> 1 < size -> maxval - v < size - 1).
Proof.
  unfold get_integer. intros Hm H. apply oassert_ok in H as [Hs H]. apply oassert_ok in H as [Hi H].
  inversion H; subst v; clear H.
  set (Np := if size =? 1 then 1 else size - 1).
  assert (HN : 1 <= Np) by (unfold Np; destruct (Z.eqb_spec size 1); lia).
  assert (HNs : size <= Np + 1) by (unfold Np; destruct (Z.eqb_spec size 1); lia).
  rewrite Z.quot_div_nonneg by lia.
  set (d := (maxval - minval) / Np).
  assert (Hd : 0 <= d) by (apply Z.div_pos; lia).
  assert (Hdm : d * Np <= maxval - minval) by (rewrite Z.mul_comm; apply Z.mul_div_le; lia).
  assert (Hdm2 : maxval - minval < d * Np + Np).
  { pose proof (Z.mod_pos_bound (maxval - minval) Np ltac:(lia)).
    pose proof (Z.div_mod (maxval - minval) Np ltac:(lia)). fold d in H0. lia. }
  split; [nia|]. split; [nia|].
  intros -> H1. unfold Np in *; destruct (Z.eqb_spec size 1); [lia|]. nia.
Qed.

Lemma get_integer_ok minval maxval size i : 0 <= i < size ->
  exists v, get_integer minval maxval size i = Ok v.
Proof.
  intros H. unfold get_integer. replace (0 <? size) with true by lia.
  replace ((0 <=? i) && (i <? size)) with true by lia. simpl. eauto.
Qed.

Lemma get_integer_mono minval maxval size i j v w :
  minval <= maxval -> i <= j ->
  get_integer minval maxval size i = Ok v -> get_integer minval maxval size j = Ok w -> v <= w.
Proof.
  unfold get_integer. intros Hm Hij H1 H2.
  apply oassert_ok in H1 as [Hs H1]. apply oassert_ok in H1 as [Hi H1]. inversion H1; subst v; clear H1.
  apply oassert_ok in H2 as [_ H2]. apply oassert_ok in H2 as [Hj H2]. inversion H2; subst w; clear H2.
  set (Np := if size =? 1 then 1 else size - 1).
  assert (HN : 1 <= Np) by (unfold Np; destruct (Z.eqb_spec size 1); lia).
  rewrite Z.quot_div_nonneg by lia.
  pose proof (Z.div_pos (maxval - minval) Np). nia.
Qed.

(** full coverage under divisibility *)
Lemma get_integer_last minval maxval size :
  minval <= maxval -> 1 < size -> (size - 1 | maxval - minval) ->
  get_integer minval maxval size (size - 1) = Ok maxval.
Proof.
  intros Hm Hs [c Hc]. unfold get_integer. replace (0 <? size) with true by lia.
  replace ((0 <=? size - 1) && (size - 1 <? size)) with true by lia. simpl.
  destruct (Z.eqb_spec size 1); [lia|]. rewrite Hc, Z.quot_mul by lia. f_equal. lia.
Qed.

Lemma get_integer_inj minval maxval size i j v :
  minval <= maxval -> 1 < size <= maxval - minval + 1 ->
  get_integer minval maxval size i = Ok v -> get_integer minval maxval size j = Ok v -> i = j.
Proof.
  unfold get_integer. intros Hm Hsz H1 H2.
  apply oassert_ok in H1 as [Hs H1]. apply oassert_ok in H1 as [Hi H1]. inversion H1; subst v; clear H1.
  apply oassert_ok in H2 as [_ H2]. apply oassert_ok in H2 as [Hj H2]. inversion H2 as [E]; clear H2.
  destruct (Z.eqb_spec size 1); [lia|].
  rewrite Z.quot_div_nonneg in E by lia.
  assert (1 <= (maxval - minval) / (size - 1)).
  { apply Z.div_le_lower_bound; lia. }
  nia.
Qed.

(** the size set by [SetMaximumSize] leaves an integer of the range unvisited *)
Lemma maximum_size_misses minval maxval size :
  set_maximum_size minval maxval = Ok size ->
  exists k, minval <= k <= maxval /\ forall i, get_integer minval maxval size i <> Ok k.
Proof.
  unfold set_maximum_size. intros H. apply oassert_ok in H as [Hs H]. inversion H as [E]; clear H.
  set (n := maxval - minval) in *.
  exists (if n =? 2 then minval + 1 else maxval).
  split; [destruct (Z.eqb_spec n 2); lia|].
  intros i H. unfold get_integer in H. fold n in H.
  apply oassert_ok in H as [_ H]. apply oassert_ok in H as [Hi H]. inversion H as [Ev]; clear H.
  destruct (Z.eqb_spec n 2) as [E2|E2].
  - rewrite E2 in *. replace (2 =? 1) with false in Ev by reflexivity.
    change (Z.quot 2 (2 - 1)) with 2 in Ev. lia.
  - destruct (Z.eqb_spec n 1) as [E1|E1].
    + rewrite E1 in *. change (Z.quot 1 1) with 1 in Ev. lia.
    + assert (Eq : Z.quot n (n - 1) = 1).
      { rewrite Z.quot_div_nonneg by lia. symmetry. apply (Z.div_unique n (n - 1) 1 1); lia. }
      rewrite Eq in Ev. lia.
Qed.

Lemma parse_filenames_ok {S} (fmt : Z -> S) minval maxval (acc : list S) :
  minval <= maxval + 1 ->
  exists news, parse_filenames fmt minval maxval acc = acc ++ news /\
    Z.of_nat (length news) = maxval - minval + 1 /\
    forall k, minval <= k <= maxval -> nth_error news (Z.to_nat (k - minval)) = Some (fmt k).
Proof.
  intros H. unfold parse_filenames. eexists; split; [reflexivity|]. split.
  - rewrite map_length, seq_length. lia.
  - intros k Hk. rewrite nth_error_map, (nth_error_nth' _ 0%nat) by (rewrite seq_length; lia).
    rewrite seq_nth by lia. simpl. do 2 f_equal. lia.
Qed.

Open Scope R_scope.

Lemma np_pos size : (0 < size)%Z -> 1 <= IZR (if (size =? 1)%Z then 1 else size - 1).
Proof. intros. apply IZR_le. destruct (Z.eqb_spec size 1); lia. Qed.

Lemma double_linear_range minval maxval size i : minval <= maxval -> (0 <= i < size)%Z ->
  exists v, double_param_linear minval maxval size i = Ok v /\ minval <= v <= maxval /\
    (i = 0%Z -> v = minval) /\ (i = (size - 1)%Z -> (1 < size)%Z -> v = maxval).
Proof.
  intros Hm Hi. unfold double_param_linear. replace (0 <? size)%Z with true by lia.
  replace ((0 <=? i) && (i <? size))%Z with true by lia. cbn [oassert].
  eexists; split; [reflexivity|].
  set (Np := (if (size =? 1)%Z then 1 else size - 1)%Z).
  assert (HN : 1 <= IZR Np) by (apply np_pos; lia).
  assert (Hi0 : 0 <= IZR i) by (apply IZR_le; lia).
  assert (HiN : IZR i <= IZR Np).
  { apply IZR_le. unfold Np; destruct (Z.eqb_spec size 1); lia. }
  assert (E : IZR i * ((maxval - minval) / IZR Np) = (maxval - minval) * (IZR i / IZR Np)) by (field; lra).
  assert (Hf0 : 0 <= IZR i / IZR Np).
  { apply Rmult_le_pos; auto. left; apply Rinv_0_lt_compat; lra. }
  assert (Hf1 : IZR i / IZR Np <= 1).
  { apply (Rmult_le_reg_r (IZR Np)); [lra|]. unfold Rdiv. rewrite Rmult_assoc, Rinv_l by lra. lra. }
  repeat split.
  - rewrite E. assert (0 <= (maxval - minval) * (IZR i / IZR Np)) by (apply Rmult_le_pos; lra). lra.
  - rewrite E. assert ((maxval - minval) * (IZR i / IZR Np) <= (maxval - minval) * 1)
      by (apply Rmult_le_compat_l; lra). lra.
  - intros ->. lra.
  - intros -> Hs. unfold Np in *; destruct (Z.eqb_spec size 1); [lia|]. field. lra.
Qed.

Lemma double_linear_mono minval maxval size i j v w : minval <= maxval -> (i <= j)%Z ->
  double_param_linear minval maxval size i = Ok v -> double_param_linear minval maxval size j = Ok w ->
  v <= w.
Proof.
  intros Hm Hij H1 H2. unfold double_param_linear in *.
  apply oassert_ok in H1 as [Hs H1]. apply oassert_ok in H1 as [Hi H1]. inversion H1; subst v; clear H1.
  apply oassert_ok in H2 as [_ H2]. apply oassert_ok in H2 as [Hj H2]. inversion H2; subst w; clear H2.
  set (Np := (if (size =? 1)%Z then 1 else size - 1)%Z).
  assert (HN : 1 <= IZR Np) by (apply np_pos; lia).
  assert (0 <= (maxval - minval) / IZR Np).
  { apply Rmult_le_pos; [lra|]. left; apply Rinv_0_lt_compat; lra. }
  assert (IZR i <= IZR j) by (apply IZR_le; auto).
  assert (IZR i * ((maxval - minval) / IZR Np) <= IZR j * ((maxval - minval) / IZR Np)).
  { apply Rmult_le_compat_r; auto. }
  lra.
Qed.

Lemma pow_exp x n : pow (exp x) n = exp (INR n * x).
Proof.
  induction n as [|n IH].
  - simpl. rewrite Rmult_0_l, exp_0. auto.
  - rewrite <- tech_pow_Rmult, IH, <- exp_plus, S_INR. f_equal. lra.
Qed.

Lemma exp_le a b : a <= b -> exp a <= exp b.
Proof. intros [H| ->]; [left; apply exp_increasing; auto|right; auto]. Qed.

Lemma double_log_range minval maxval size i : 0 < minval <= maxval -> (0 <= i < size)%Z ->
  exists v, double_param_log minval maxval size i = Ok v /\ minval <= v <= maxval /\
    (i = 0%Z -> v = minval) /\ (i = (size - 1)%Z -> (1 < size)%Z -> v = maxval).
Proof.
  intros Hm Hi. unfold double_param_log. replace (0 <? size)%Z with true by lia.
  replace ((0 <=? i) && (i <? size))%Z with true by lia. cbn [oassert].
  eexists; split; [reflexivity|].
  set (Np := (if (size =? 1)%Z then 1 else size - 1)%Z).
  assert (HN : 1 <= IZR Np) by (apply np_pos; lia).
  rewrite pow_exp.
  assert (Ei : INR (Z.to_nat i) = IZR i) by (rewrite INR_IZR_INZ, Z2Nat.id; auto; lia).
  rewrite Ei.
  assert (Hi0 : 0 <= IZR i) by (apply IZR_le; lia).
  assert (HiN : IZR i <= IZR Np).
  { apply IZR_le. unfold Np; destruct (Z.eqb_spec size 1); lia. }
  set (L := ln (maxval / minval)).
  assert (Hr1 : 1 <= maxval / minval).
  { apply (Rmult_le_reg_r minval); [lra|]. unfold Rdiv. rewrite Rmult_assoc, Rinv_l by lra. lra. }
  assert (HL : 0 <= L).
  { unfold L. destruct Hr1 as [Hr1|Hr1].
    - left. rewrite <- ln_1. apply ln_increasing; lra.
    - rewrite <- Hr1, ln_1. lra. }
  assert (HeL : exp L = maxval / minval) by (apply exp_ln; lra).
  assert (E : IZR i * (L / IZR Np) = L * (IZR i / IZR Np)) by (field; lra).
  assert (Hf0 : 0 <= IZR i / IZR Np).
  { apply Rmult_le_pos; auto. left; apply Rinv_0_lt_compat; lra. }
  assert (Hf1 : IZR i / IZR Np <= 1).
  { apply (Rmult_le_reg_r (IZR Np)); [lra|]. unfold Rdiv. rewrite Rmult_assoc, Rinv_l by lra. lra. }
  rewrite E. repeat split.
  - assert (1 <= exp (L * (IZR i / IZR Np))).
    { rewrite <- exp_0. apply exp_le. apply Rmult_le_pos; auto. }
    assert (minval * 1 <= minval * exp (L * (IZR i / IZR Np))) by (apply Rmult_le_compat_l; lra). lra.
  - assert (exp (L * (IZR i / IZR Np)) <= exp L).
    { apply exp_le. assert (L * (IZR i / IZR Np) <= L * 1) by (apply Rmult_le_compat_l; lra). lra. }
    assert (minval * exp (L * (IZR i / IZR Np)) <= minval * exp L) by (apply Rmult_le_compat_l; lra).
    rewrite HeL in H0. replace (minval * (maxval / minval)) with maxval in H0 by (field; lra). lra.
  - intros ->. unfold Rdiv. rewrite Rmult_0_l, Rmult_0_r, exp_0. lra.
  - intros -> Hs. replace (IZR (size - 1) / IZR Np) with 1.
    + rewrite Rmult_1_r, HeL. field. lra.
    + unfold Np in *; destruct (Z.eqb_spec size 1); [lia|]. field. lra.
Qed.

Lemma double_log_mono minval maxval size i j v w : 0 < minval <= maxval -> (i <= j)%Z ->
  double_param_log minval maxval size i = Ok v -> double_param_log minval maxval size j = Ok w ->
  v <= w.
Proof.
  intros Hm Hij H1 H2. unfold double_param_log in *.
  apply oassert_ok in H1 as [Hs H1]. apply oassert_ok in H1 as [Hi H1]. inversion H1; subst v; clear H1.
  apply oassert_ok in H2 as [_ H2]. apply oassert_ok in H2 as [Hj H2]. inversion H2; subst w; clear H2.
  set (Np := (if (size =? 1)%Z then 1 else size - 1)%Z).
  assert (HN : 1 <= IZR Np) by (apply np_pos; lia).
  rewrite !pow_exp.
  apply Rmult_le_compat_l; [lra|]. apply exp_le. apply Rmult_le_compat_r.
  - apply Rmult_le_pos; [|left; apply Rinv_0_lt_compat; lra].
    assert (Hr1 : 1 <= maxval / minval).
    { apply (Rmult_le_reg_r minval); [lra|]. unfold Rdiv. rewrite Rmult_assoc, Rinv_l by lra. lra. }
    destruct Hr1 as [Hr1|Hr1].
    + left. rewrite <- ln_1. apply ln_increasing; lra.
    + rewrite <- Hr1, ln_1. lra.
  - rewrite !INR_IZR_INZ. apply IZR_le. lia.
Qed.

Lemma double_random_range minval maxval u : 0 <= u <= 1 ->
  (minval <= maxval -> minval <= double_random_linear minval maxval u <= maxval) /\
  (0 < minval <= maxval -> minval <= double_random_log minval maxval u <= maxval).
Proof.
  intros Hu. split.
  - intros Hm. unfold double_random_linear.
    assert (0 <= (maxval - minval) * u) by (apply Rmult_le_pos; lra).
    assert ((maxval - minval) * u <= (maxval - minval) * 1) by (apply Rmult_le_compat_l; lra). lra.
  - intros Hm. unfold double_random_log, Rpower.
    assert (Hr1 : 1 <= maxval / minval).
    { apply (Rmult_le_reg_r minval); [lra|]. unfold Rdiv. rewrite Rmult_assoc, Rinv_l by lra. lra. }
    assert (HL : 0 <= ln (maxval / minval)).
    { destruct Hr1 as [Hr1|Hr1].
      - left. rewrite <- ln_1. apply ln_increasing; lra.
      - rewrite <- Hr1, ln_1. lra. }
    assert (HeL : exp (ln (maxval / minval)) = maxval / minval) by (apply exp_ln; lra).
    assert (1 <= exp (u * ln (maxval / minval))).
    { rewrite <- exp_0. apply exp_le. apply Rmult_le_pos; lra. }
    assert (exp (u * ln (maxval / minval)) <= maxval / minval).
    { rewrite <- HeL at 2. apply exp_le.
      assert (u * ln (maxval / minval) <= 1 * ln (maxval / minval)) by (apply Rmult_le_compat_r; lra). lra. }
    split.
    + assert (minval * 1 <= minval * exp (u * ln (maxval / minval))) by (apply Rmult_le_compat_l; lra). lra.
    + assert (minval * exp (u * ln (maxval / minval)) <= minval * (maxval / minval))
        by (apply Rmult_le_compat_l; lra).
      replace (minval * (maxval / minval)) with maxval in H1 by (field; lra). lra.
Qed.
Close Scope R_scope.

(** ** The sample generation loop *)

Lemma all_samples_S n file_off :
  all_samples (S n) file_off = all_samples n file_off ++ [(Z.of_nat n, Z.of_nat n + file_off)].
Proof. unfold all_samples. rewrite seq_S, map_app. reflexivity. Qed.

(** single process: every index is my job *)
Lemma single_process_owns total : 0 <= total -> exists offs,
  distribute_samples total 1 = Ok offs /\ forall i, 0 <= i < total -> is_my_job offs 0 i = Ok true.
Proof.
  intros Ht. destruct (distribution_fair total 1 Ht ltac:(lia)) as (offs & E & Hb & F).
  exists offs; split; auto. intros i Hi.
  destruct (fp_exactly_one _ _ _ F i Hi) as (r & [Hr Hown] & _).
  assert (r = 0)%nat by lia. subst; auto.
Qed.

Section Loop.
  Context {C : Type} (total : Z) (offs : list Z) (rank : nat) (gt : gen_type) (file_off : Z).
  Context (setp : Z -> C -> C) (converge : nat -> bool) (cfg0 : C).
  Context (Hjob : forall i, 0 <= i < total -> is_my_job offs rank i = Ok true).
  Let step := generate_step total offs rank gt file_off setp converge.
  Let loop fuel st := generate_loop fuel total offs rank gt file_off setp converge cfg0 st.

  (** From sample [s], solve attempt [a]: when each sample needs finitely many attempts the loop ends. *)
  Lemma loop_all_converge : (forall n, converge n = true) -> forall k st,
    0 <= ls_s st -> Z.of_nat k = total - ls_s st ->
    ls_solved st = all_samples (Z.to_nat (ls_s st)) file_off ->
    loop (S k) st = Finished (all_samples (Z.to_nat total) file_off) cfg0.
  Proof.
    intros Hc. induction k as [|k IH]; intros st H0 Hk Hs; unfold loop in *; cbn [generate_loop];
      unfold generate_step at 1.
    - destruct (Z.ltb_spec (ls_s st) total); [lia|]. cbn [negb].
      rewrite Hs. do 2 f_equal. lia.
    - destruct (Z.ltb_spec (ls_s st) total); [|lia]. cbn [negb].
      rewrite Hjob by lia. rewrite Hc. apply IH; simpl; try lia.
      rewrite Hs. replace (Z.to_nat (ls_s st + 1)) with (S (Z.to_nat (ls_s st))) by lia.
      rewrite all_samples_S. do 3 f_equal; lia.
  Qed.

  (** whatever the solver answers: finished means every sample once, in order *)
  Lemma loop_finished : forall fuel st solved cfg,
    0 <= ls_s st <= total ->
    ls_solved st = all_samples (Z.to_nat (ls_s st)) file_off ->
    loop fuel st = Finished solved cfg ->
    solved = all_samples (Z.to_nat total) file_off /\ cfg = cfg0.
  Proof.
    induction fuel as [|f IH]; intros st solved cfg H0 Hs H; unfold loop in *; cbn [generate_loop] in H;
      [discriminate|]; unfold generate_step at 1 in H.
    destruct (Z.ltb_spec (ls_s st) total) as [Hlt|Hge]; cbn [negb] in H.
    - rewrite Hjob in H by lia. destruct (converge (ls_attempts st)).
      + apply IH in H; auto; simpl; [lia|].
        rewrite Hs. replace (Z.to_nat (ls_s st + 1)) with (S (Z.to_nat (ls_s st))) by lia.
        rewrite all_samples_S. do 3 f_equal; lia.
      + destruct gt; [discriminate|]. apply IH in H; auto.
    - inversion H; subst. rewrite Hs. replace (Z.to_nat (ls_s st)) with (Z.to_nat total) by lia. auto.
  Qed.

  (** random mode ends whenever the solver succeeds again and again *)
  Lemma loop_random_ends : gt = RANDOM -> (forall n, exists m, (n <= m)%nat /\ converge m = true) ->
    forall k st, 0 <= ls_s st -> Z.of_nat k = total - ls_s st ->
    exists fuel solved, loop fuel st = Finished solved cfg0.
  Proof.
    intros Hgt Hinf. induction k as [|k IH]; intros st H0 Hk.
    - exists 1%nat, (ls_solved st). unfold loop; cbn [generate_loop]. unfold generate_step.
      destruct (Z.ltb_spec (ls_s st) total); [lia|]. reflexivity.
    - destruct (Hinf (ls_attempts st)) as (m & Hm & Hcm).
      assert (Hgap : exists d, m = (ls_attempts st + d)%nat) by (exists (m - ls_attempts st)%nat; lia).
      destruct Hgap as [d Hd]. clear Hm. revert st H0 Hk Hd.
      induction d as [|d IHd]; intros st H0 Hk Hd.
      + destruct (IH {| ls_s := ls_s st + 1; ls_attempts := S (ls_attempts st);
                  ls_solved := ls_solved st ++ [(ls_s st, ls_s st + file_off)];
                  ls_cfg := setp (ls_s st) (ls_cfg st) |}) as (fuel & solved & E); [simpl; lia|simpl; lia|].
        exists (S fuel), solved. unfold loop in *; cbn [generate_loop]. unfold generate_step at 1.
        destruct (Z.ltb_spec (ls_s st) total); [|lia]. cbn [negb]. rewrite Hjob by lia.
        replace (converge (ls_attempts st)) with true by (rewrite <- Hcm; f_equal; lia). exact E.
      + destruct (converge (ls_attempts st)) eqn:Ec.
        * destruct (IH {| ls_s := ls_s st + 1; ls_attempts := S (ls_attempts st);
                  ls_solved := ls_solved st ++ [(ls_s st, ls_s st + file_off)];
                  ls_cfg := setp (ls_s st) (ls_cfg st) |}) as (fuel & solved & E); [simpl; lia|simpl; lia|].
          exists (S fuel), solved. unfold loop in *; cbn [generate_loop]. unfold generate_step at 1.
          destruct (Z.ltb_spec (ls_s st) total); [|lia]. cbn [negb]. rewrite Hjob by lia.
          rewrite Ec. exact E.
        * destruct (IHd {| ls_s := ls_s st; ls_attempts := S (ls_attempts st);
                  ls_solved := ls_solved st; ls_cfg := setp (ls_s st) (ls_cfg st) |})
            as (fuel & solved & E); [simpl; lia|simpl; lia|simpl; lia|].
          exists (S fuel), solved. unfold loop in *; cbn [generate_loop]. unfold generate_step at 1.
          destruct (Z.ltb_spec (ls_s st) total); [|lia]. cbn [negb]. rewrite Hjob by lia.
          rewrite Ec, Hgt. rewrite Hgt in E. exact E.
  Qed.
End Loop.

(** A process that meets a sample that is not its own spins forever. *)
Lemma loop_stuck {C} total offs rank gt file_off setp converge (cfg0 : C) st :
  ls_s st < total -> is_my_job offs rank (ls_s st) = Ok false ->
  forall fuel, generate_loop fuel total offs rank gt file_off setp converge cfg0 st = OutOfFuel st.
Proof.
  intros Hs Hj. induction fuel as [|f IH]; [reflexivity|].
  cbn [generate_loop]. unfold generate_step.
  destruct (Z.ltb_spec (ls_s st) total); [|lia]. cbn [negb]. rewrite Hj. exact IH.
Qed.

Lemma nonzero_rank_never_starts total procs rank : 0 < total -> (0 < rank < procs)%nat ->
  exists offs, distribute_samples total procs = Ok offs /\ is_my_job offs rank 0 = Ok false.
Proof.
  intros Ht Hr. destruct (distribution_fair total procs ltac:(lia) ltac:(lia)) as (offs & E & Hb & F).
  exists offs; split; auto.
  destruct (Hb rank 0 ltac:(lia)) as ([|] & Hj); auto. exfalso.
  destruct (fp_exactly_one _ _ _ F 0 ltac:(lia)) as (r & [Hr0 Hown] & Huniq).
  assert (rank = r) by (apply Huniq; auto; lia). subst r.
  (* rank 0 owns nothing, but shares differ by at most one and are in order *)
  destruct (fp_ranges _ _ _ F) as (lo & size & Hsz & Hbal).
  destruct (Hsz 0%nat ltac:(lia)) as (Hs0 & Hr0'). destruct (Hsz rank ltac:(lia)) as (Hs1 & Hr1).
  pose proof (proj1 (Hr1 0) Hj) as Hin.
  destruct (distribute_closed total procs ltac:(lia) ltac:(lia)) as (offs' & E' & Hlen & Hnth).
  assert (offs' = offs) by congruence. subst offs'.
  unfold is_my_job, oread in Hj. rewrite !Hnth in Hj by lia. cbn [obind] in Hj. inversion Hj as [Hj'].
  set (P := Z.of_nat procs) in *. set (q := total / P) in *. set (rm := total mod P) in *.
  assert (HP : 0 < P) by lia.
  assert (Hrem : 0 <= rm < P) by (unfold rm; apply Z.mod_pos_bound; lia).
  assert (Htot : total = P * q + rm) by (unfold q, rm; apply Z.div_mod; lia).
  assert (Hq : 0 <= q) by (apply Z.div_pos; lia).
  unfold off_closed in Hj'. nia.
Qed.

Lemma rank0_stuck_point total procs : (1 < procs)%nat -> 1 < total ->
  exists offs n, distribute_samples total procs = Ok offs /\ (0 < Z.of_nat n < total) /\
    (forall i, 0 <= i < Z.of_nat n -> is_my_job offs 0 i = Ok true) /\
    is_my_job offs 0 (Z.of_nat n) = Ok false.
Proof.
  intros Hp Ht. destruct (distribute_closed total procs ltac:(lia) ltac:(lia)) as (offs & E & Hlen & Hnth).
  set (P := Z.of_nat procs) in *. set (q := total / P) in *. set (rm := total mod P) in *.
  assert (HP : 1 < P) by lia.
  assert (Hrem : 0 <= rm < P) by (unfold rm; apply Z.mod_pos_bound; lia).
  assert (Htot : total = P * q + rm) by (unfold q, rm; apply Z.div_mod; lia).
  assert (Hq : 0 <= q) by (apply Z.div_pos; lia).
  exists offs, (Z.to_nat (off_closed q rm 1)).
  assert (H1 : 0 < off_closed q rm 1 < total) by (unfold off_closed; nia).
  assert (H0 : off_closed q rm 0 = 0) by (unfold off_closed; lia).
  rewrite Z2Nat.id by lia.
  split; [auto|]. split; [auto|]. unfold is_my_job, oread. rewrite !Hnth by lia. cbn [obind]. rewrite H0. split.
  - intros i Hi. f_equal. lia.
  - f_equal. lia.
Qed.

Lemma generate_samples_single {C} total gt file_off setp converge (cfg : C) :
  0 <= total ->
  (forall fuel solved cfg', generate_samples fuel total 1 0 gt file_off setp converge cfg = Finished solved cfg' ->
     solved = all_samples (Z.to_nat total) file_off /\ cfg' = cfg) /\
  ((forall n, converge n = true) ->
     generate_samples (S (Z.to_nat total)) total 1 0 gt file_off setp converge cfg
     = Finished (all_samples (Z.to_nat total) file_off) cfg) /\
  (gt = RANDOM -> (forall n, exists m, (n <= m)%nat /\ converge m = true) ->
     exists fuel, generate_samples fuel total 1 0 gt file_off setp converge cfg
     = Finished (all_samples (Z.to_nat total) file_off) cfg).
Proof.
  intros Ht. destruct (single_process_owns total Ht) as (offs & E & Hj).
  unfold generate_samples. rewrite E.
  assert (Hfin : forall fuel solved cfg', generate_loop fuel total offs 0 gt file_off setp converge cfg
     {| ls_s := 0; ls_attempts := 0; ls_solved := []; ls_cfg := cfg |} = Finished solved cfg' ->
     solved = all_samples (Z.to_nat total) file_off /\ cfg' = cfg).
  { intros fuel solved cfg' H. eapply loop_finished in H; eauto; simpl; lia. }
  repeat split.
  - eapply Hfin; eauto.
  - eapply Hfin; eauto.
  - intros Hc. apply loop_all_converge; auto; simpl; lia.
  - intros Hg Hinf.
    destruct (loop_random_ends total offs 0 gt file_off setp converge cfg Hj Hg Hinf (Z.to_nat total)
       {| ls_s := 0; ls_attempts := 0; ls_solved := []; ls_cfg := cfg |}) as (fuel & solved & Hrun);
      simpl; try lia.
    exists fuel. rewrite Hrun. apply Hfin in Hrun as [-> _]. reflexivity.
Qed.

Lemma generate_samples_multi_stuck {C} total procs rank gt file_off setp converge (cfg : C) :
  0 < total -> (1 < procs)%nat -> (rank < procs)%nat ->
  ((0 < rank)%nat \/ 1 < total) ->
  (forall n, converge n = true) ->
  forall fuel solved cfg',
    generate_samples fuel total procs rank gt file_off setp converge cfg <> Finished solved cfg'.
Proof.
  intros Ht Hp Hr Hcase Hc fuel solved cfg'. unfold generate_samples.
  destruct (Nat.eq_dec rank 0) as [->|Hr0].
  - destruct Hcase as [|Ht1]; [lia|].
    destruct (rank0_stuck_point total procs Hp Ht1) as (offs & n & E & Hn & Hmine & Hnot).
    rewrite E.
    assert (G : forall k st fuel, Z.of_nat k = Z.of_nat n - ls_s st -> 0 <= ls_s st ->
      generate_loop fuel total offs 0 gt file_off setp converge cfg st <> Finished solved cfg').
    { induction k as [|k IH]; intros st f Hk H0.
      - rewrite loop_stuck; [discriminate|lia|]. replace (ls_s st) with (Z.of_nat n) by lia. auto.
      - destruct f as [|f]; [discriminate|]. cbn [generate_loop]. unfold generate_step.
        destruct (Z.ltb_spec (ls_s st) total); [|lia]. cbn [negb]. rewrite Hmine by lia. rewrite Hc.
        apply IH; simpl; lia. }
    apply (G n); simpl; lia.
  - destruct (nonzero_rank_never_starts total procs rank Ht ltac:(lia)) as (offs & E & Hj).
    rewrite E, loop_stuck; simpl; auto; discriminate.
Qed.
