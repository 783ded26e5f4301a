(** Offsets set up by the solvers, removal of the pressure mean. *)
From Coq Require Import Reals List Bool Lia Arith ZArith String Lra.
From Verif Require Import Outcome ListLemmas LaBase BlockVec RomModel RomSpec RomProofs RomOpProofs MbModel MbSpec MbVecProofs.
Import ListNotations.
Local Open Scope list_scope.
Local Open Scope nat_scope.

(** Writing an array from front to back. *)
Lemma owrite_snoc {A} (d x : A) a r : 0 < r -> owrite (a ++ repeat d r) (List.length a) x = Ok ((a ++ [x]) ++ repeat d (r - 1)).
Proof.
  intros H. destruct r; [lia|]. rewrite owrite_vec by (rewrite app_length, repeat_length; lia). f_equal.
  replace (S r - 1) with r by lia. cbn [repeat]. rewrite <- app_assoc. cbn [app].
  induction a; cbn [app List.length upd]; auto. f_equal. auto.
Qed.

Lemma owrite_snoc_at {A} (d x : A) a r i : i = List.length a -> 0 < r -> owrite (a ++ repeat d r) i x = Ok ((a ++ [x]) ++ repeat d (r - 1)).
Proof. intros ->. apply owrite_snoc. Qed.

Lemma psum_firstn L : forall acc i, i < S (List.length L) -> nth i (psum acc (0 :: L)) 0 = acc + list_sum (firstn i L).
Proof.
  induction L as [|x L IH]; intros acc i Hi; cbn [List.length] in Hi.
  - destruct i; [|lia]. cbn. lia.
  - destruct i; [cbn; lia|]. specialize (IH (acc + x) i ltac:(lia)). cbn [psum nth firstn] in *. rewrite Nat.add_0_r in *.
    cbn [psum] in *. rewrite IH. cbn [firstn]. change (list_sum (x :: firstn i L)) with (x + list_sum (firstn i L)). lia.
Qed.

Lemma list_sum_firstn_S L i : i < List.length L -> list_sum (firstn (S i) L) = list_sum (firstn i L) + nth i L 0.
Proof.
  revert i. induction L as [|x L IH]; intros i Hi; cbn [List.length] in Hi; [lia|]. destruct i.
  - cbn. lia.
  - change (x + list_sum (firstn (S i) L) = x + list_sum (firstn i L) + nth i L 0). rewrite IH by lia. lia.
Qed.

Lemma psum_list_offsets L : offsets (psum 0 (0 :: L)) (List.length L) (fun i => nth i L 0).
Proof.
  split; [rewrite psum_length; reflexivity|]. split; [reflexivity|]. intros i Hi.
  rewrite !psum_firstn by lia. rewrite list_sum_firstn_S by auto. lia.
Qed.

Lemma offsets_ext off n f g : (forall i, i < n -> f i = g i) -> offsets off n f -> offsets off n g.
Proof. intros H (A & B & C). split; [auto|]. split; [auto|]. intros i Hi. rewrite C, H; auto. Qed.

(** Sums over rows of equal length. *)
Lemma firstn_rows (f : nat -> list nat) w : (forall m, List.length (f m) = w) -> forall n a k, k <= n ->
  list_sum (firstn (k * w) (flat_map f (seq a n))) = nsum k (fun m => list_sum (f (a + m))).
Proof.
  intros L n. induction n; intros a k Hk.
  - replace k with 0 by lia. reflexivity.
  - destruct k; [reflexivity|]. cbn [seq flat_map]. cbn [Nat.mul]. rewrite firstn_app, L.
    replace (w + k * w - w) with (k * w) by lia. rewrite (firstn_all2 (n := w + k * w)) by (rewrite L; lia).
    rewrite list_sum_app, IHn by lia.
    assert (E : forall g j, nsum (S j) g = g 0 + nsum j (fun i => g (S i))).
    { intros g j. induction j; [unfold nsum; simpl; lia|]. rewrite nsum_S, IHj, (nsum_S j). lia. }
    rewrite E, Nat.add_0_r. f_equal. apply nsum_ext. intros. f_equal. f_equal. lia.
Qed.

Lemma rows_length (f : nat -> list nat) w : (forall m, List.length (f m) = w) -> forall n a, List.length (flat_map f (seq a n)) = n * w.
Proof. intros L n. induction n; intros a; auto. cbn [seq flat_map]. rewrite app_length, L, IHn. lia. Qed.

Lemma rows_nth (f : nat -> list nat) w : (forall m, List.length (f m) = w) -> forall n a m i, m < n -> i < w ->
  nth (m * w + i) (flat_map f (seq a n)) 0 = nth i (f (a + m)) 0.
Proof.
  intros L n. induction n; intros a m i Hm Hi; [lia|]. cbn [seq flat_map]. destruct m.
  - rewrite app_nth1 by (rewrite L; lia). rewrite Nat.add_0_r. reflexivity.
  - rewrite app_nth2 by (rewrite L; nia). rewrite L. replace (S m * w + i - w) with (m * w + i) by nia.
    rewrite IHn by lia. f_equal. f_equal. lia.
Qed.

Lemma nth_repeat_lt {A} (x d : A) n i : i < n -> nth i (repeat x n) d = x.
Proof. revert i. induction n; intros i H; [lia|]. destruct i; cbn; auto. apply IHn. lia. Qed.
Lemma list_sum_repeat a n : list_sum (repeat a n) = n * a.
Proof. induction n; auto. change (a + list_sum (repeat a n) = a + n * a). lia. Qed.

(** ** One variable *)

Lemma scalar_offsets_ok ns udim vsize ndofs :
  exists bo vo nd, scalar_offsets ns udim vsize ndofs = Ok (bo, vo, nd) /\
    offsets bo (udim * ns) (fun i => ndofs (i / udim)) /\ offsets vo ns vsize /\
    List.length nd = ns /\ (forall m, m < ns -> nth m nd 0 = vsize m) /\
    ((forall m, m < ns -> vsize m = udim * ndofs m) -> forall m, m <= ns -> nth (m * udim) bo 0 = nth m vo 0).
Proof.
  unfold scalar_offsets.
  destruct (ofor_inv ns (fun '(bo, vo, nd) i =>
    let* vo := owrite vo (i + 1) (vsize i) in
    let* nd := owrite nd i (vsize i) in
    let* bo := ofor udim (fun bo d => owrite bo (d + i * udim + 1) (ndofs i)) bo in
    Ok (bo, vo, nd)) (fun k '(bo, vo, nd) =>
      bo = (0 :: flat_map (fun m => repeat (ndofs m) udim) (seq 0 k)) ++ repeat 0 (udim * ns - k * udim) /\
      vo = (0 :: map vsize (seq 0 k)) ++ repeat 0 (ns - k) /\ nd = map vsize (seq 0 k) ++ repeat 0 (ns - k))
    (repeat 0 (udim * ns + 1), repeat 0 (ns + 1), repeat 0 ns)) as (((bo & vo) & nd) & E & Ib & Iv & In').
  - cbn [seq flat_map map app Nat.mul]. rewrite !Nat.sub_0_r, !Nat.add_1_r. auto.
  - intros i ((bo & vo) & nd) Hi (-> & -> & ->).
    assert (Lb : List.length (flat_map (fun m => repeat (ndofs m) udim) (seq 0 i)) = i * udim)
      by (apply rows_length; intros; apply repeat_length).
    rewrite owrite_snoc_at by (cbn [List.length]; rewrite ?map_length, ?seq_length; lia). cbn [obind].
    rewrite owrite_snoc_at by (rewrite ?map_length, ?seq_length; lia). cbn [obind].
    destruct (ofor_inv udim (fun bo d => owrite bo (d + i * udim + 1) (ndofs i)) (fun d bo =>
      bo = ((0 :: flat_map (fun m => repeat (ndofs m) udim) (seq 0 i)) ++ repeat (ndofs i) d) ++ repeat 0 (udim * ns - i * udim - d))
      ((0 :: flat_map (fun m => repeat (ndofs m) udim) (seq 0 i)) ++ repeat 0 (udim * ns - i * udim))) as (b' & E' & ->).
    + cbn [repeat]. rewrite app_nil_r, Nat.sub_0_r. reflexivity.
    + intros d b Hd ->. rewrite owrite_snoc_at; [|rewrite app_length; cbn [List.length]; rewrite Lb, repeat_length; lia|nia].
      eexists. split; [reflexivity|]. 
      rewrite <- (app_assoc _ (repeat (ndofs i) d) [ndofs i]), <- repeat_cons.
      change (ndofs i :: repeat (ndofs i) d) with (repeat (ndofs i) (S d)). f_equal. f_equal. lia.
    + rewrite E'. cbn [obind]. eexists. split; [reflexivity|]. cbn beta iota. rewrite seq_S, flat_map_app, !map_app. cbn [flat_map map].
      rewrite app_nil_r. cbn [Nat.add]. split; [|split].
      * cbn [app]. do 2 f_equal. f_equal. cbn [Nat.mul]. lia.
      * cbn [app]. do 2 f_equal. f_equal. lia.
      * f_equal. f_equal. lia.
  - rewrite E. cbn [obind]. rewrite (Nat.mul_comm ns udim), !Nat.sub_diag in *. cbn [repeat] in *. rewrite !app_nil_r in *. subst.
    assert (R : forall m, List.length (repeat (ndofs m) udim) = udim) by (intros; apply repeat_length).
    pose proof (rows_length _ udim R ns 0) as Lb.
    eexists _, _, _. split; [reflexivity|]. split; [|split; [|split; [|split]]].
    + rewrite (Nat.mul_comm udim ns), <- Lb. apply (offsets_ext _ _ (fun i => nth i (flat_map (fun m => repeat (ndofs m) udim) (seq 0 ns)) 0)); [|apply psum_list_offsets].
      intros i Hi. rewrite Lb in Hi. destruct (lin_onto i ns udim Hi) as (A & B & C). rewrite C at 1.
      rewrite (rows_nth _ udim R) by auto. cbn [Nat.add]. rewrite nth_repeat_lt by auto. reflexivity.
    + rewrite <- (seq_length ns 0) at 2. rewrite <- (map_length vsize). apply (offsets_ext _ _ (fun i => nth i (map vsize (seq 0 ns)) 0)); [|apply psum_list_offsets].
      intros i Hi. rewrite map_length, seq_length in Hi. apply nth_map_seq; auto.
    + rewrite map_length, seq_length. auto.
    + intros m Hm. apply nth_map_seq; auto.
    + intros Hs m Hm. rewrite !psum_firstn by (rewrite ?Lb, ?map_length, ?seq_length; nia). cbn [Nat.add].
      rewrite (firstn_rows _ udim R) by auto.
      replace (firstn m (map vsize (seq 0 ns))) with (map vsize (seq 0 m)).
      * clear - Hs Hm. induction m; [reflexivity|]. rewrite nsum_S, IHm by lia. rewrite seq_S, map_app, list_sum_app. cbn [map list_sum fold_right Nat.add].
        rewrite Hs by lia. assert (Q : forall a n, list_sum (repeat a n) = n * a) by (clear; induction n; cbn; auto; rewrite IHn; lia).
        rewrite Q. lia.
      * replace ns with (m + (ns - m)) by lia. rewrite seq_app, map_app, firstn_app, map_length, seq_length, Nat.sub_diag.
        rewrite firstn_O, app_nil_r, firstn_all2; auto. rewrite map_length, seq_length. auto.
Qed.

(** ** Velocity and pressure *)

Definition bl2 (nd0 nd1 v0 v1 : nat) : list nat := repeat nd0 v0 ++ repeat nd1 v1.

Lemma fill_const x n l r i : i = List.length l -> n <= r ->
  ofor n (fun '(bo, bi) (_ : nat) => let* bo := owrite bo bi x in Ok (bo, bi + 1)) (l ++ repeat 0 r, i) = Ok ((l ++ repeat x n) ++ repeat 0 (r - n), i + n).
Proof.
  intros -> H. induction n.
  - unfold ofor. cbn [seq ofold repeat]. rewrite app_nil_r, Nat.sub_0_r, Nat.add_0_r. reflexivity.
  - rewrite ofor_S, IHn by lia. cbn [obind]. rewrite owrite_snoc_at; [|rewrite app_length, repeat_length; lia|lia]. cbn [obind].
    rewrite <- (app_assoc _ (repeat x n) [x]), <- repeat_cons. do 2 f_equal; [|lia]. f_equal. f_equal. lia.
Qed.

Lemma flow_offsets_lists ns udim vsize ndofs vdim : udim = vdim 0 + vdim 1 ->
  let bl := flat_map (fun m => bl2 (ndofs m 0) (ndofs m 1) (vdim 0) (vdim 1)) (seq 0 ns) in
  let vl := flat_map (fun m => [vsize m 0; vsize m 1]) (seq 0 ns) in
  let dl := map (fun m => vsize m 0 + vsize m 1) (seq 0 ns) in
  let uo := psum 0 (0 :: map (fun m => vsize m 0) (seq 0 ns)) in
  let po := psum 0 (0 :: map (fun m => vsize m 1) (seq 0 ns)) in
  flow_offsets ns 2 udim vsize ndofs vdim =
  Ok (FlowOff (psum 0 (0 :: bl)) (psum 0 (0 :: vl)) dl (psum 0 (0 :: dl)) uo po [0; last uo 0; last uo 0 + last po 0]).
Proof.
  intros Hu bl vl dl uo po. unfold flow_offsets.
  set (inner := fun m '(bo, vo, dom, bi, vi) (v : nat) =>
      let sp := if v =? 0 then 0 else 1 in
      let* vo := owrite vo vi (vsize m sp) in
      let* (bo, bi) := ofor (vdim v) (fun '(bo, bi) d => let* bo := owrite bo bi (ndofs m sp) in Ok (bo, bi + 1)) (bo, bi) in
      let* x := oread dom (m + 1) in
      let* dom := owrite dom (m + 1) (x + vsize m sp) in
      Ok (bo, vo, dom, bi, vi + 1)).
  destruct (ofor_inv ns (fun '(bo, vo, dom, uo, po, bi, vi) m =>
    let* (bo, vo, dom, bi, vi) := ofor 2 (inner m) (bo, vo, dom, bi, vi) in
    let* uo := owrite uo (m + 1) (vsize m 0) in
    let* po := owrite po (m + 1) (vsize m 1) in
    Ok (bo, vo, dom, uo, po, bi, vi)) (fun k '(bo, vo, dom, uo, po, bi, vi) =>
      bo = (0 :: flat_map (fun m => bl2 (ndofs m 0) (ndofs m 1) (vdim 0) (vdim 1)) (seq 0 k)) ++ repeat 0 (udim * ns - udim * k) /\
      vo = (0 :: flat_map (fun m => [vsize m 0; vsize m 1]) (seq 0 k)) ++ repeat 0 (2 * ns - 2 * k) /\
      dom = (0 :: map (fun m => vsize m 0 + vsize m 1) (seq 0 k)) ++ repeat 0 (ns - k) /\
      uo = (0 :: map (fun m => vsize m 0) (seq 0 k)) ++ repeat 0 (ns - k) /\
      po = (0 :: map (fun m => vsize m 1) (seq 0 k)) ++ repeat 0 (ns - k) /\ bi = 1 + udim * k /\ vi = 1 + 2 * k)
    (repeat 0 (udim * ns + 1), repeat 0 (2 * ns + 1), repeat 0 (ns + 1), repeat 0 (ns + 1), repeat 0 (ns + 1), 1, 1))
    as (((((((bo & vo) & dom) & uo') & po') & bi) & vi) & E & Hb & Hv & Hd & Hu' & Hp & _ & _).
  - cbn [seq flat_map map app]. rewrite !Nat.mul_0_r, !Nat.sub_0_r, !Nat.add_0_r, !Nat.add_1_r. cbn [repeat]. repeat split.
  - intros i ((((((bo & vo) & dom) & uo') & po') & bi) & vi) Hi (-> & -> & -> & -> & -> & -> & ->).
    assert (Lb : List.length (flat_map (fun m => bl2 (ndofs m 0) (ndofs m 1) (vdim 0) (vdim 1)) (seq 0 i)) = i * udim).
    { apply rows_length. intros m. unfold bl2. rewrite app_length, !repeat_length. lia. }
    assert (Lv : List.length (flat_map (fun m => [vsize m 0; vsize m 1]) (seq 0 i)) = i * 2) by (apply rows_length; auto).
    set (B := 0 :: flat_map (fun m => bl2 (ndofs m 0) (ndofs m 1) (vdim 0) (vdim 1)) (seq 0 i)) in *.
    set (V := 0 :: flat_map (fun m => [vsize m 0; vsize m 1]) (seq 0 i)) in *.
    set (D := 0 :: map (fun m => vsize m 0 + vsize m 1) (seq 0 i)) in *.
    assert (LD : List.length D = S i) by (unfold D; cbn [List.length]; rewrite map_length, seq_length; auto).
    assert (LB : List.length B = S (i * udim)) by (unfold B; cbn [List.length]; rewrite Lb; auto).
    assert (LV : List.length V = S (i * 2)) by (unfold V; cbn [List.length]; rewrite Lv; auto).
    assert (HB : udim * S i <= udim * ns) by (apply Nat.mul_le_mono_l; lia).
    assert (F : ofor 2 (inner i) (B ++ repeat 0 (udim * ns - udim * i), V ++ repeat 0 (2 * ns - 2 * i), D ++ repeat 0 (ns - i), 1 + udim * i, 1 + 2 * i)
      = Ok ((B ++ bl2 (ndofs i 0) (ndofs i 1) (vdim 0) (vdim 1)) ++ repeat 0 (udim * ns - udim * S i),
            (V ++ [vsize i 0; vsize i 1]) ++ repeat 0 (2 * ns - 2 * S i),
            (D ++ [vsize i 0 + vsize i 1]) ++ repeat 0 (ns - S i), 1 + udim * S i, 1 + 2 * S i)).
    { unfold ofor. cbn [seq ofold]. unfold inner at 1. cbn [Nat.eqb].
      rewrite owrite_snoc_at by (rewrite ?LV; lia). cbn [obind].
      rewrite fill_const by (rewrite ?LB; lia). cbn [obind].
      assert (R1 : oread (D ++ repeat 0 (ns - i)) (i + 1) = Ok 0).
      { rewrite (oread_nth _ _ 0) by (rewrite app_length, repeat_length; lia). rewrite app_nth2 by lia. f_equal. apply nth_repeat. }
      rewrite R1. cbn [obind Nat.add]. rewrite owrite_snoc_at by (rewrite ?LD; lia). cbn [obind].
      unfold inner at 1. cbn [Nat.eqb].
      rewrite owrite_snoc_at by (rewrite ?app_length, ?LV; cbn [List.length]; lia). cbn [obind].
      rewrite fill_const by (rewrite ?app_length, ?LB, ?repeat_length; lia). cbn [obind].
      assert (R2 : oread ((D ++ [vsize i 0]) ++ repeat 0 (ns - i - 1)) (i + 1) = Ok (vsize i 0)).
      { rewrite (oread_nth _ _ 0) by (rewrite !app_length, repeat_length; cbn [List.length]; lia).
        rewrite app_nth1 by (rewrite app_length; cbn [List.length]; lia). rewrite app_nth2 by lia. rewrite LD, Nat.add_1_r, Nat.sub_diag. reflexivity. }
      rewrite R2. cbn [obind].
      assert (W2 : owrite ((D ++ [vsize i 0]) ++ repeat 0 (ns - i - 1)) (i + 1) (vsize i 0 + vsize i 1) = Ok ((D ++ [vsize i 0 + vsize i 1]) ++ repeat 0 (ns - i - 1))).
      { rewrite owrite_vec by (rewrite !app_length, repeat_length; cbn [List.length]; lia). f_equal. rewrite Nat.add_1_r, <- LD.
        rewrite <- !app_assoc. clear. induction D; cbn [app List.length upd]; auto. f_equal. auto. }
      rewrite W2. cbn [obind]. unfold bl2. f_equal. repeat match goal with |- (_, _) = (_, _) => apply f_equal2 end; try lia.
      - rewrite <- (app_assoc B). f_equal. f_equal. lia.
      - rewrite <- (app_assoc V). f_equal. f_equal. lia.
      - f_equal. f_equal. lia. }
    rewrite F. cbn [obind]. rewrite owrite_snoc_at by (cbn [List.length]; rewrite ?map_length, ?seq_length; lia). cbn [obind].
    rewrite owrite_snoc_at by (cbn [List.length]; rewrite ?map_length, ?seq_length; lia). cbn [obind].
    eexists. split; [reflexivity|]. cbn beta iota. rewrite seq_S, !flat_map_app, !map_app. cbn [flat_map map Nat.add].
    rewrite !app_nil_r. replace (ns - S i) with (ns - i - 1) by lia. unfold B, V, D. cbn [app]. repeat split; try lia.
  - rw_bind E. rewrite !Nat.sub_diag in *. cbn [repeat] in *. rewrite !app_nil_r in *. subst. cbn [skipn].
    rewrite firstn_all2 by (rewrite map_length, seq_length; lia). reflexivity.
Qed.

Definition comps_before (vdim : nat -> nat) (v : nat) : nat := if v =? 0 then 0 else vdim 0.

Lemma rows2_sum (f : nat -> nat -> nat) ns m : m <= ns ->
  list_sum (firstn (m * 2) (flat_map (fun m => [f m 0; f m 1]) (seq 0 ns))) = list_sum (firstn m (map (fun m => f m 0 + f m 1) (seq 0 ns))).
Proof.
  intros H. rewrite (firstn_rows _ 2) by auto. induction m; [reflexivity|].
  rewrite nsum_S, IHm by lia. rewrite list_sum_firstn_S by (rewrite map_length, seq_length; lia).
  rewrite nth_map_seq by lia. cbn [list_sum fold_right Nat.add]. lia.
Qed.

Lemma map_offsets (f : nat -> nat) ns : offsets (psum 0 (0 :: map f (seq 0 ns))) ns f.
Proof.
  rewrite <- (seq_length ns 0) at 2. rewrite <- (map_length f). apply (offsets_ext _ _ (fun i => nth i (map f (seq 0 ns)) 0)); [|apply psum_list_offsets].
  intros i Hi. rewrite map_length, seq_length in Hi. apply nth_map_seq; auto.
Qed.

Lemma last_nth (l : list nat) d : last l d = nth (List.length l - 1) l d.
Proof.
  induction l as [|x l IH]; auto. destruct l as [|y l]; auto. change (last (x :: y :: l) d) with (last (y :: l) d). rewrite IH.
  cbn [List.length]. rewrite !Nat.sub_succ, !Nat.sub_0_r. reflexivity.
Qed.

Lemma offsets_last off n s : offsets off n s -> last off 0 = nth n off 0.
Proof. intros (L & _). rewrite last_nth, L. f_equal. lia. Qed.

Lemma nsum_plus n f g : nsum n (fun i => f i + g i) = nsum n f + nsum n g.
Proof. induction n; auto. rewrite !nsum_S, IHn. lia. Qed.

(** All offsets of the flow solvers describe the same vector. *)
Lemma flow_offsets_ok ns udim vsize ndofs vdim : udim = vdim 0 + vdim 1 ->
  exists fo, flow_offsets ns 2 udim vsize ndofs vdim = Ok fo /\
    (List.length (fo_var fo) = S (2 * ns) /\ nth 0 (fo_var fo) 0 = 0 /\
     forall m v, m < ns -> v < 2 -> nth (S (by_sub 2 m v)) (fo_var fo) 0 = nth (by_sub 2 m v) (fo_var fo) 0 + vsize m v) /\
    offsets (fo_dom fo) ns (fun m => vsize m 0 + vsize m 1) /\
    (forall m, m <= ns -> nth m (fo_dom fo) 0 = nth (m * 2) (fo_var fo) 0) /\
    fo_vdofs fo = map (fun m => vsize m 0 + vsize m 1) (seq 0 ns) /\
    offsets (fo_u fo) ns (fun m => vsize m 0) /\ offsets (fo_p fo) ns (fun m => vsize m 1) /\
    fo_vblock fo = [0; nth ns (fo_u fo) 0; nth ns (fo_u fo) 0 + nth ns (fo_p fo) 0] /\
    nth ns (fo_u fo) 0 + nth ns (fo_p fo) 0 = nth (2 * ns) (fo_var fo) 0 /\
    (List.length (fo_block fo) = S (udim * ns) /\ nth 0 (fo_block fo) 0 = 0 /\
     (forall m v d, m < ns -> v < 2 -> d < vdim v ->
        let i := m * udim + comps_before vdim v + d in nth (S i) (fo_block fo) 0 = nth i (fo_block fo) 0 + ndofs m v) /\
     ((forall m v, m < ns -> v < 2 -> vsize m v = vdim v * ndofs m v) ->
        forall m v, m < ns -> v < 2 -> nth (m * udim + comps_before vdim v) (fo_block fo) 0 = nth (by_sub 2 m v) (fo_var fo) 0)).
Proof.
  intros Hu. pose proof (flow_offsets_lists ns udim vsize ndofs vdim Hu) as E. cbv zeta in E. eexists. split; [exact E|]. clear E.
  cbn [fo_block fo_var fo_vdofs fo_dom fo_u fo_p fo_vblock].
  assert (Rb : forall m, List.length (bl2 (ndofs m 0) (ndofs m 1) (vdim 0) (vdim 1)) = udim)
    by (intros; unfold bl2; rewrite app_length, !repeat_length; lia).
  assert (Rv : forall m, List.length [vsize m 0; vsize m 1] = 2) by auto.
  pose proof (rows_length _ udim Rb ns 0) as Lb. pose proof (rows_length _ 2 Rv ns 0) as Lv.
  set (vl := flat_map (fun m => [vsize m 0; vsize m 1]) (seq 0 ns)) in *.
  set (bl := flat_map (fun m => bl2 (ndofs m 0) (ndofs m 1) (vdim 0) (vdim 1)) (seq 0 ns)) in *.
  pose proof (map_offsets (fun m => vsize m 0) ns) as Ou. pose proof (map_offsets (fun m => vsize m 1) ns) as Op.
  pose proof (map_offsets (fun m => vsize m 0 + vsize m 1) ns) as Od.
  assert (DV : forall m, m <= ns -> nth m (psum 0 (0 :: map (fun m => vsize m 0 + vsize m 1) (seq 0 ns))) 0 = nth (m * 2) (psum 0 (0 :: vl)) 0).
  { intros m Hm. rewrite !psum_firstn by (rewrite ?map_length, ?seq_length, ?Lv; lia). unfold vl. rewrite rows2_sum; auto. }
  assert (Vs : forall m v, m < ns -> v < 2 -> nth (S (by_sub 2 m v)) (psum 0 (0 :: vl)) 0 = nth (by_sub 2 m v) (psum 0 (0 :: vl)) 0 + vsize m v).
  { intros m v Hm Hv. unfold by_sub. rewrite !psum_firstn by (rewrite Lv; lia). rewrite list_sum_firstn_S by (rewrite Lv; lia).
    unfold vl. rewrite (rows_nth _ 2 Rv) by auto. destruct v as [|[|v]]; cbn [nth Nat.add]; lia. }
  assert (Bs : forall m v d, m < ns -> v < 2 -> d < vdim v ->
        let i := m * udim + comps_before vdim v + d in nth (S i) (psum 0 (0 :: bl)) 0 = nth i (psum 0 (0 :: bl)) 0 + ndofs m v).
  { intros m v d Hm Hv Hd i. assert (Hi : comps_before vdim v + d < udim) by (unfold comps_before; destruct v as [|[|v]]; cbn; lia).
    assert (i < ns * udim) by (unfold i; rewrite <- Nat.add_assoc; apply lin_lt; auto).
    rewrite !psum_firstn by (rewrite Lb; lia). rewrite list_sum_firstn_S by (rewrite Lb; lia).
    unfold i at 2, bl at 2. rewrite <- Nat.add_assoc, (rows_nth _ udim Rb) by auto. unfold bl2, comps_before. cbn [Nat.add].
    destruct v as [|[|v]]; cbn [Nat.eqb]; [|  |lia].
    - rewrite app_nth1 by (rewrite repeat_length; auto). rewrite nth_repeat_lt by auto. lia.
    - rewrite app_nth2 by (rewrite repeat_length; lia). rewrite repeat_length, nth_repeat_lt by lia. lia. }
  split; [split; [rewrite psum_length; cbn [List.length]; rewrite Lv; lia|split; [reflexivity|exact Vs]]|].
  split; [exact Od|]. split; [exact DV|]. split; [reflexivity|]. split; [exact Ou|]. split; [exact Op|].
  split; [rewrite !(offsets_last _ _ _ Ou), (offsets_last _ _ _ Op); reflexivity|].
  split.
  { replace (2 * ns) with (ns * 2) by lia. rewrite <- DV by auto.
    rewrite (offsets_nsum _ ns _ ns Ou), (offsets_nsum _ ns _ ns Op), (offsets_nsum _ ns _ ns Od), nsum_plus; auto. }
  split; [rewrite psum_length; cbn [List.length]; rewrite Lb; lia|]. split; [reflexivity|]. split; [exact Bs|].
  intros Hs m v Hm Hv.
  assert (A0 : forall m, m <= ns -> nth (m * udim) (psum 0 (0 :: bl)) 0 = nth (m * 2) (psum 0 (0 :: vl)) 0).
  { clear m v Hm Hv. intros m Hm. rewrite !psum_firstn by (rewrite ?Lv, ?Lb; nia). unfold bl, vl.
    rewrite (firstn_rows _ udim Rb), (firstn_rows _ 2 Rv) by auto. f_equal. apply nsum_ext. intros i Hi. cbn [Nat.add].
    unfold bl2. rewrite list_sum_app, !list_sum_repeat. rewrite <- !Hs by lia. cbn [list_sum fold_right]. lia. }
  unfold by_sub, comps_before. destruct v as [|[|v]]; cbn [Nat.eqb]; [| |lia].
  - rewrite !Nat.add_0_r. apply A0. lia.
  - pose proof (Vs m 0 Hm ltac:(lia)) as V1. unfold by_sub in V1. rewrite Nat.add_0_r, <- Nat.add_1_r in V1. rewrite V1, <- A0 by lia.
    rewrite Hs by lia. assert (K : forall k, k <= vdim 0 -> nth (m * udim + k) (psum 0 (0 :: bl)) 0 = nth (m * udim) (psum 0 (0 :: bl)) 0 + k * ndofs m 0).
    { induction k; intros Hk; [rewrite Nat.add_0_r; lia|]. pose proof (Bs m 0 k Hm ltac:(lia) ltac:(lia)) as B1. cbv zeta in B1.
      unfold comps_before in B1. cbn [Nat.eqb] in B1. rewrite Nat.add_0_r in B1. replace (m * udim + S k) with (S (m * udim + k)) by lia.
      rewrite B1, IHk by lia. lia. }
    apply K. auto.
Qed.

(** Offsets sorted by variable. *)
Lemma offsets_byvar_ok ns uo po us ps : offsets uo ns us -> offsets po ns ps ->
  exists off, offsets_byvar ns 2 uo po = Ok off /\ List.length off = S (2 * ns) /\ nth 0 off 0 = 0 /\
    (forall m, m <= ns -> nth m off 0 = nth m uo 0) /\ (forall m, m <= ns -> nth (ns + m) off 0 = nth ns uo 0 + nth m po 0).
Proof.
  intros Ou Op. pose proof (offsets_last uo ns us Ou) as La. destruct Ou as (Lu & Zu & _). destruct Op as (Lp & Zp & _).
  unfold offsets_byvar.
  destruct (ofor_inv ns (fun l k => let* u := oread uo (k + 1) in let* l := owrite l (k + 1) u in let* p := oread po (k + 1) in owrite l (k + 1 + ns) (p + last uo 0))
    (fun k l => List.length l = S (2 * ns) /\ nth 0 l 0 = 0 /\ (forall m, m < k -> nth (S m) l 0 = nth (S m) uo 0) /\
       (forall m, m < k -> nth (S m + ns) l 0 = nth (S m) po 0 + nth ns uo 0)) (repeat 0 (2 * ns + 1))) as (l & E & L & Z & A & B).
  - split; [rewrite repeat_length; lia|]. split; [apply nth_repeat|]. split; intros; lia.
  - intros k l Hk (L & Z & A & B). rewrite (oread_nth uo (k + 1) 0) by lia. cbn [obind]. rewrite owrite_vec by lia. cbn [obind].
    rewrite (oread_nth po (k + 1) 0) by lia. cbn [obind]. rewrite owrite_vec by (rewrite upd_length; lia).
    eexists. split; [reflexivity|]. rewrite !upd_length. split; [auto|]. rewrite !nth_upd_ne by lia. split; [auto|]. split.
    + intros m Hm. rewrite nth_upd_ne by lia. destruct (Nat.eq_dec m k) as [->|N].
      * rewrite Nat.add_1_r, nth_upd_eq by lia. auto.
      * rewrite nth_upd_ne by lia. apply A. lia.
    + intros m Hm. destruct (Nat.eq_dec m k) as [->|N].
      * rewrite Nat.add_1_r, nth_upd_eq by (rewrite upd_length; lia). lia.
      * rewrite !nth_upd_ne by lia. apply B. lia.
  - exists l. split; [exact E|]. split; [auto|]. split; [auto|]. split.
    + intros [|m] Hm; [rewrite Z, Zu; auto|]. apply A. lia.
    + intros [|m] Hm; [|replace (ns + S m) with (S m + ns) by lia; rewrite B by lia; lia].
      rewrite Nat.add_0_r, Zp, Nat.add_0_r. destruct ns as [|n]; [rewrite Z, Zu; auto|]. apply A. lia.
Qed.

Lemma offsets_byvar_shape ns uo po vs (d : vec) off : offsets uo ns (fun m => vs m 0) -> offsets po ns (fun m => vs m 1) ->
  offsets_byvar ns 2 uo po = Ok off -> List.length d = nth ns uo 0 + nth ns po 0 ->
  var_shaped ns 2 vs (BVec off d) /\ nth (ns + ns) off 0 = nth ns uo 0 + nth ns po 0 /\
  (forall m, m <= ns -> nth (ns + m) off 0 = nth ns uo 0 + nth m po 0) /\ (forall m, m <= ns -> nth m off 0 = nth m uo 0).
Proof.
  intros Ou Op E Ld. destruct (offsets_byvar_ok ns uo po _ _ Ou Op) as (off' & E' & L & Z & A & B). rewrite E in E'. injection E' as <-.
  split; [|split; [apply B; auto|split; [exact B|exact A]]].
  exists (fun i => if i <? ns then vs i 0 else vs (i - ns) 1). split.
  - split; [exact L|]. split; [exact Z|]. split.
    + cbn [bv_off]. intros i Hi. destruct (Nat.ltb_spec i ns) as [H|H].
      * rewrite !A by lia. apply Ou. auto.
      * replace i with (ns + (i - ns)) by lia. rewrite <- Nat.add_succ_r, !B by lia. replace (ns + (i - ns) - ns) with (i - ns) by lia.
        destruct Op as (_ & _ & Op). rewrite Op by lia. lia.
    + cbn [bv_off bv_dat]. replace (2 * ns) with (ns + ns) by lia. rewrite B by auto. exact Ld.
  - intros m v Hm Hv. unfold by_var. destruct v as [|[|v]]; [| |lia].
    + rewrite (proj2 (Nat.ltb_lt _ _)) by lia. f_equal.
    + rewrite (proj2 (Nat.ltb_ge _ _)) by lia. f_equal. lia.
Qed.

(** ** The pressure mean *)
Lemma nth_firstn {A} n (l : list A) k d : k < n -> nth k (firstn n l) d = nth k l d.
Proof. revert l k; induction n; intros [|] [|]; simpl; intros; auto; try lia. apply IHn; lia. Qed.

Lemma rsum_tiles off n size (f : nat -> R) i : offsets off n size -> i <= n ->
  rsum (nth i off 0) f = rsum i (fun j => rsum (size j) (fun k => f (nth j off 0 + k))).
Proof.
  intros O. induction i; intros H; [rewrite (proj1 (proj2 O)); reflexivity|]. destruct O as (L & Z & O). rewrite O by lia.
  rewrite rsum_split, IHi by lia. reflexivity.
Qed.

Lemma remove_mean_ok a e (sol : vec) x : a <= e -> List.length sol = e ->
  exists s, remove_mean [x; a; e] sol = Ok s /\ List.length s = e /\
    (forall i, i < a -> vnth s i = vnth sol i) /\
    (forall i, a <= i -> i < e -> vnth s i = (vnth sol i - rsum (e - a) (fun k => vnth sol (a + k)) / INR (e - a))%R).
Proof.
  intros H L. unfold remove_mean. cbn [oread nth_error obind]. rewrite (proj2 (Nat.leb_le a e)), (proj2 (Nat.leb_le e _)) by lia. cbn [andb oguard].
  eexists. split; [reflexivity|]. rewrite (skipn_all2 (n := e) sol) by lia. rewrite app_nil_r.
  assert (Lf : List.length (firstn a sol) = a) by (rewrite firstn_length; lia).
  assert (Lp : List.length (firstn (e - a) (skipn a sol)) = e - a) by (rewrite firstn_length, skipn_length; lia).
  assert (P : forall k, k < e - a -> vnth (firstn (e - a) (skipn a sol)) k = vnth sol (a + k)).
  { intros k Hk. unfold vnth. rewrite nth_firstn by auto. rewrite <- (firstn_skipn a sol) at 2.
    rewrite app_nth2 by lia. f_equal. lia. }
  split; [rewrite app_length, map_length; lia|]. split.
  - intros i Hi. unfold vnth. rewrite app_nth1 by lia. rewrite nth_firstn by auto. auto.
  - intros i H1 H2. unfold vnth at 1. rewrite app_nth2 by lia. rewrite Lf.
    rewrite (nth_indep _ 0%R (0 - rsum (e - a) (vnth (firstn (e - a) (skipn a sol))) / INR (e - a))%R) by (rewrite map_length; lia).
    rewrite (map_nth (fun x => (x - _)%R)). change (nth (i - a) (firstn (e - a) (skipn a sol)) 0%R) with (vnth (firstn (e - a) (skipn a sol)) (i - a)).
    rewrite P by lia. replace (a + (i - a)) with i by lia. do 2 f_equal. apply rsum_ext. exact P.
Qed.

(** The pressure of the solution has mean zero, the velocity is what the linear solver returned. *)
Lemma flow_solve_ok ns udim vs ndofs vdim fo pres_dbc solve rhs u junk : udim = vdim 0 + vdim 1 ->
  flow_offsets ns 2 udim vs ndofs vdim = Ok fo -> sub_shaped ns 2 vs rhs -> sub_shaped ns 2 vs u ->
  List.length junk = nth (2 * ns) (fo_var fo) 0 -> (forall x, List.length x = List.length junk -> List.length (solve x) = List.length junk) ->
  exists off r u', flow_solve ns 2 fo pres_dbc solve rhs u junk = Ok u' /\
    var_shaped ns 2 vs (BVec off r) /\ var_shaped ns 2 vs (BVec off (solve r)) /\ sub_shaped ns 2 vs u' /\ bv_off u' = bv_off u /\
    (forall m v k, m < ns -> v < 2 -> k < vs m v -> bentry (BVec off r) (by_var ns m v) k = bentry rhs (by_sub 2 m v) k) /\
    (forall m v k, m < ns -> v < 2 -> k < vs m v -> bentry u' (by_sub 2 m v) k = 
       if pres_dbc || (v =? 0) then bentry (BVec off (solve r)) (by_var ns m v) k
       else (bentry (BVec off (solve r)) (by_var ns m v) k
             - var_mean ns vs 1 (fun m k => bentry (BVec off (solve r)) (by_var ns m 1) k))%R).
Proof.
  intros Hu E Sr Su Lj Ls. destruct (flow_offsets_ok ns udim vs ndofs vdim Hu) as (fo' & E' & Hv & _ & _ & _ & Ou & Op & Vb & Tot & _).
  rewrite E in E'. injection E' as <-. destruct (offsets_byvar_ok ns _ _ _ _ Ou Op) as (off & Eo & _).
  assert (Sh : forall d : vec, List.length d = nth ns (fo_u fo) 0 + nth ns (fo_p fo) 0 -> var_shaped ns 2 vs (BVec off d))
    by (intros d Hd; apply (offsets_byvar_shape ns _ _ vs d off Ou Op Eo Hd)).
  destruct (sort_vars_ok ns 2 vs rhs (BVec off junk) Sr (Sh junk ltac:(lia))) as (r & Er & Shr & Or & Vr).
  destruct r as [ro r]. cbn [bv_off] in Or. subst ro.
  assert (Lr : List.length r = List.length junk).
  { destruct Shr as (s1 & (_ & _ & _ & L1) & _). cbn [bv_dat bv_off] in L1.
    destruct (Sh junk ltac:(lia)) as (s2 & (_ & _ & _ & L2) & _). cbn [bv_dat bv_off] in L2. congruence. }
  pose proof (Ls r Lr) as Lsol.
  destruct (offsets_byvar_shape ns _ _ vs (solve r) off Ou Op Eo ltac:(lia)) as (Shs & _ & OB & OA).
  assert (Uns : nth ns (fo_u fo) 0 = nth ns off 0) by (rewrite OA; auto).
  exists off, r. unfold flow_solve. rewrite Eo. cbn [obind]. rewrite Er. cbn [obind bv_dat].
  destruct pres_dbc.
  - cbn [obind]. destruct (sort_subs_ok ns 2 vs (BVec off (solve r)) u Shs Su) as (u' & Eu & Su' & Ou' & Vu). exists u'.
    split; [exact Eu|]. split; [auto|]. split; [auto|]. split; [auto|]. split; [auto|]. split; [auto|]. cbn [orb]. exact Vu.
  - rewrite Vb. destruct (remove_mean_ok (nth ns (fo_u fo) 0) (nth ns (fo_u fo) 0 + nth ns (fo_p fo) 0) (solve r) 0 ltac:(lia) ltac:(lia))
      as (s & Es & Lms & Va & Vp). rewrite Es. cbn [obind].
    destruct (sort_subs_ok ns 2 vs (BVec off s) u (Sh s ltac:(lia)) Su) as (u' & Eu & Su' & Ou' & Vu). exists u'.
    split; [exact Eu|]. split; [auto|]. split; [auto|]. split; [auto|]. split; [auto|]. split; [auto|]. cbn [orb].
    intros m v k Hm Hv2 Hk. rewrite Vu by auto. unfold bentry, by_var. cbn [bv_off bv_dat]. destruct v as [|[|v]]; [| |lia]; cbn [Nat.eqb].
    + rewrite Va; auto. cbn [Nat.mul Nat.add]. rewrite OA by lia. pose proof (offsets_mono _ _ _ (S m) ns Ou ltac:(lia)).
      destruct Ou as (_ & _ & Ou). rewrite Ou in H by auto. lia.
    + rewrite !Nat.mul_1_l, OB by lia. pose proof (offsets_mono _ _ _ (S m) ns Op ltac:(lia)) as Mo.
      pose proof (proj2 (proj2 Op) m Hm) as Om. cbn beta in Om.
      rewrite Vp by lia. unfold var_mean, var_sum. do 2 f_equal.
      * replace (nth ns (fo_u fo) 0 + nth ns (fo_p fo) 0 - nth ns (fo_u fo) 0) with (nth ns (fo_p fo) 0) by lia.
        rewrite (rsum_tiles _ _ _ _ ns Op) by auto. apply rsum_ext. intros j Hj. apply rsum_ext. intros q Hq. rewrite OB by lia. f_equal. lia.
      * f_equal. rewrite (offsets_nsum _ _ _ ns Op) by auto. lia.
Qed.

Lemma flow_mean_zero ns (vs : nat -> nat -> nat) v (g : nat -> nat -> R) : 0 < nsum ns (fun m => vs m v) ->
  var_sum ns vs v (fun m k => (g m k - var_mean ns vs v g)%R) = 0%R.
Proof.
  intros H. set (c := var_mean ns vs v g). unfold var_sum.
  rewrite (rsum_ext ns _ (fun m => rsum (vs m v) (fun k => g m k) - INR (vs m v) * c)%R).
  2:{ intros m Hm. rewrite rsum_minus, rsum_const. auto. }
  rewrite rsum_minus, rsum_scal_r.
  assert (K : forall n, rsum n (fun m => INR (vs m v)) = INR (nsum n (fun m => vs m v))).
  { induction n; [reflexivity|]. rewrite nsum_S, plus_INR. cbn [rsum]. rewrite IHn. reflexivity. }
  rewrite K. unfold c, var_mean, var_sum. apply lt_0_INR in H. field. lra.
Qed.

(** Removing the mean twice is removing it once. *)
Lemma remove_mean_twice a e (sol s : vec) x : a <= e -> List.length sol = e -> remove_mean [x; a; e] sol = Ok s -> remove_mean [x; a; e] s = Ok s.
Proof.
  intros H L E. destruct (remove_mean_ok a e sol x H L) as (s1 & E1 & L1 & A1 & B1). rewrite E in E1. injection E1 as <-.
  destruct (remove_mean_ok a e s x H L1) as (s2 & E2 & L2 & A2 & B2). rewrite E2. f_equal. apply vec_ext; [congruence|].
  intros i Hi. rewrite L2 in Hi. destruct (Nat.lt_ge_cases i a) as [Q|Q]; [apply A2; auto|]. rewrite B2 by auto.
  assert (P : 0 < e - a) by lia. apply lt_0_INR in P.
  rewrite (rsum_ext (e - a) _ (fun k => vnth sol (a + k) - rsum (e - a) (fun k => vnth sol (a + k)) / INR (e - a))%R) by (intros k Hk; apply B1; lia).
  rewrite rsum_minus, rsum_const. field. lra.
Qed.
