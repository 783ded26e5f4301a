(** Boundary types, visualization, solution files, errors, element files. *)
From Coq Require Import Reals List Bool Lia Arith ZArith Ascii String DecimalString Lra.
From Verif Require Import Outcome ConfigModel ConfigProofs ListLemmas TagsSpec LaBase BlockVec RomModel RomSpec RomProofs RomOpProofs MbModel MbSpec MbVecProofs MbFlowProofs.
From Verif Require CompProofs.
Import ListNotations.
Local Open Scope list_scope.
Local Open Scope nat_scope.

(** ** Boundary types *)
Lemma attr_find_spec l a : forall i,
  match attr_find l a i with
  | Some j => i <= j /\ first_at l a (j - i)
  | None => ~ In a l
  end.
Proof.
  induction l as [|x l IH]; intros i; cbn [attr_find]; [auto|]. destruct (Z.eqb_spec x a) as [->|N].
  - split; [lia|]. rewrite Nat.sub_diag. split; [reflexivity|]. intros j Hj. lia.
  - specialize (IH (S i)). destruct (attr_find l a (S i)) as [j|].
    + destruct IH as (Hj & F1 & F2). split; [lia|]. replace (j - i) with (S (j - S i)) by lia. split; [exact F1|].
      intros [|k] Hk; [cbn; congruence|]. cbn [nth_error]. apply F2. lia.
    + intros [E|E]; [auto|]. auto.
Qed.

Lemma first_at_fun l a i j : first_at l a i -> first_at l a j -> i = j.
Proof.
  intros (A & B) (C & D). destruct (lt_eq_lt_dec i j) as [[H|H]|H]; auto.
  - exfalso. apply (D i H A).
  - exfalso. apply (B j H C).
Qed.

Lemma attr_find_some l a i : first_at l a i -> attr_find l a 0 = Some i.
Proof.
  intros F. pose proof (attr_find_spec l a 0) as S. destruct (attr_find l a 0) as [j|].
  - destruct S as (_ & S). rewrite Nat.sub_0_r in S. f_equal. eapply first_at_fun; eauto.
  - destruct F as (F & _). apply nth_error_In in F. contradiction.
Qed.
Lemma attr_find_none l a : ~ In a l -> attr_find l a 0 = None.
Proof.
  intros N. pose proof (attr_find_spec l a 0) as S. destruct (attr_find l a 0) as [j|]; auto. destruct S as (_ & F & _). apply nth_error_In in F. contradiction.
Qed.

Lemma set_problem_ok gattr battr ptypes types : List.length types = List.length gattr -> List.length battr <= List.length ptypes ->
  exists types', set_problem gattr battr ptypes types = Ok types' /\ List.length types' = List.length gattr /\
    forall b a, nth_error gattr b = Some a ->
      (forall i, first_at battr a i -> nth_error types' b = nth_error ptypes i) /\
      (~ In a battr -> nth_error types' b = nth_error types b).
Proof.
  intros L Lp. unfold set_problem. rewrite L, Nat.eqb_refl. cbn [oassert].
  match goal with |- context [ofor _ ?f types] => set (F := f) end.
  destruct (ofor_inv (List.length gattr) F (fun n t => List.length t = List.length gattr /\
     (forall b a, nth_error gattr b = Some a -> b < n -> 
      (forall i, first_at battr a i -> nth_error t b = nth_error ptypes i) /\
      (~ In a battr -> nth_error t b = nth_error types b)) /\ forall b, n <= b -> nth_error t b = nth_error types b) types) as (t & E & I1 & I2 & I3).
  - split; [auto|]. split; [intros; lia|auto].
  - intros n t Hn (I1 & I2 & I3). unfold F. destruct (nth_error gattr n) as [a|] eqn:Ea; [|apply nth_error_None in Ea; lia].
    unfold oread at 1. rewrite Ea. cbn [obind]. pose proof (attr_find_spec battr a 0) as S. destruct (attr_find battr a 0) as [i|].
    + destruct S as (_ & S). rewrite Nat.sub_0_r in S. assert (Hi : i < List.length ptypes).
      { destruct S as (S & _). assert (i < List.length battr) by (apply nth_error_Some; congruence). lia. }
      destruct (nth_error ptypes i) as [p|] eqn:Ep; [|apply nth_error_None in Ep; lia].
      unfold oread. rewrite Ep. cbn [obind]. rewrite owrite_vec by lia. eexists. split; [reflexivity|]. rewrite upd_length. split; [auto|]. split.
      * intros b a' Eb Hb. destruct (Nat.eq_dec b n) as [->|N].
        -- assert (a' = a) by congruence. subst a'. rewrite nth_error_upd_eq by lia. split.
           ++ intros j F'. rewrite (first_at_fun _ _ _ _ F' S). auto.
           ++ intros X. destruct S as (S & _). apply nth_error_In in S. contradiction.
        -- rewrite nth_error_upd_ne by auto. apply I2; auto. lia.
      * intros b Hb. rewrite nth_error_upd_ne by lia. apply I3. lia.
    + eexists. split; [reflexivity|]. split; [auto|]. split; [|intros; apply I3; lia]. intros b a' Eb Hb. destruct (Nat.eq_dec b n) as [->|N].
      * assert (a' = a) by congruence. subst a'. split.
        -- intros i (F' & _). apply nth_error_In in F'. contradiction.
        -- intros _. apply I3. auto.
      * apply I2; auto. lia.
  - exists t. split; [exact E|]. split; [exact I1|]. intros b a Eb. apply I2; auto. apply nth_error_Some. congruence.
Qed.

Lemma set_bdr_ok gattr types ty idx : List.length types = List.length gattr ->
  ((idx < 0)%Z -> exists t, set_bdr_type gattr types ty idx = Ok t /\ List.length t = List.length types /\ forall b, b < List.length types -> nth_error t b = Some ty) /\
  ((0 <= idx < Z.of_nat (List.length gattr))%Z -> exists t, set_bdr_type gattr types ty idx = Ok t /\ List.length t = List.length types /\
     nth_error t (Z.to_nat idx) = Some ty /\ forall b, b <> Z.to_nat idx -> nth_error t b = nth_error types b) /\
  ((Z.of_nat (List.length gattr) <= idx)%Z -> set_bdr_type gattr types ty idx = Abort).
Proof.
  intros L. unfold set_bdr_type. rewrite L, Nat.eqb_refl. cbn [oassert]. split; [|split].
  - intros H. rewrite (proj2 (Z.ltb_lt _ _)) by auto. eexists. split; [reflexivity|]. rewrite map_length. split; [auto|]. intros b Hb.
    destruct (nth_error types b) eqn:E; [rewrite nth_error_map, E; auto|apply nth_error_None in E; lia].
  - intros H. rewrite (proj2 (Z.ltb_ge _ _)), (proj2 (Z.ltb_lt _ _)) by lia. cbn [oassert]. rewrite owrite_vec by lia. eexists. split; [reflexivity|].
    rewrite upd_length. split; [auto|]. split; [apply nth_error_upd_eq; lia|]. intros b Hb. apply nth_error_upd_ne. auto.
  - intros H. rewrite (proj2 (Z.ltb_ge idx 0)), (proj2 (Z.ltb_ge _ (Z.of_nat _))) by lia. reflexivity.
Qed.

(** Largest attribute over all meshes. *)
Lemma attr_max_ok l : l <> [] -> exists x, attr_max l = Ok x /\ In x l /\ forall y, In y l -> (y <= x)%Z.
Proof.
  destruct l as [|x l]; [congruence|]. intros _. exists (fold_left Z.max l x). split; [reflexivity|]. revert x. induction l as [|z l IH]; intros x.
  - cbn. split; [auto|]. intros y [->|[]]. lia.
  - cbn [fold_left]. destruct (IH (Z.max x z)) as (A & B). split.
    + destruct A as [A|A]; [rewrite <- A; destruct (Z.max_spec x z) as [(_ & ->)|(_ & ->)]; [right; left|left]; auto|right; right; auto].
    + intros y [->|[->|H]].
      * specialize (B (Z.max y z) (or_introl eq_refl)). lia.
      * specialize (B (Z.max x y) (or_introl eq_refl)). lia.
      * apply B. right. auto.
Qed.

Lemma max_attrs_ok ms : (forall l, In l ms -> l <> []) ->
  forall a0, exists mx, ofold (fun a l => let* x := attr_max l in Ok (Z.max a x)) ms a0 = Ok mx /\ (a0 <= mx)%Z /\
    (forall l y, In l ms -> In y l -> (y <= mx)%Z) /\ (mx = a0 \/ exists l, In l ms /\ In mx l).
Proof.
  induction ms as [|l ms IH]; intros H a0.
  - exists a0. cbn. split; [auto|]. split; [lia|]. split; [intros ? ? []|auto].
  - destruct (attr_max_ok l (H l (or_introl eq_refl))) as (x & Ex & Ix & Mx). cbn [ofold]. rewrite Ex. cbn [obind].
    destruct (IH (fun l Hl => H l (or_intror Hl)) (Z.max a0 x)) as (mx & E & Hm & A & B). exists mx. split; [exact E|]. split; [lia|]. split.
    + intros l' y [->|Hl] Hy; [|eauto]. apply Mx in Hy. lia.
    + destruct B as [->|(l' & B & C)]; [|right; exists l'; split; [right|]; auto].
      destruct (Z.max_spec a0 x) as [(_ & ->)|(_ & ->)]; [right; exists l; split; [left|]; auto|auto].
Qed.

Lemma setup_bc_ok meshes gattr : meshes <> [] -> (forall l, In l meshes -> l <> []) ->
  (forall a, In a gattr -> (0 < a)%Z /\ exists l y, In l meshes /\ In y l /\ (a <= y)%Z) ->
  exists markers types n, setup_bc meshes gattr = Ok (markers, types) /\
    List.length markers = List.length gattr /\ types = repeat BNone (List.length gattr) /\
    (forall l y, In l meshes -> In y l -> (y <= Z.of_nat n)%Z) /\
    forall b a, nth_error gattr b = Some a -> exists mk, nth_error markers b = Some mk /\ List.length mk = n /\
      forall k, k < n -> nth k mk 0%Z = if (Z.of_nat k + 1 =? a)%Z then 1%Z else 0%Z.
Proof.
  intros Hne Hm Hg. destruct (max_attrs_ok meshes Hm (-1)%Z) as (mx & E & M0 & M1 & M2). unfold setup_bc. rw_bind E.
  set (f := fun a => oassert ((0 <? a) && (a <=? mx))%Z (owrite (repeat 0%Z (Z.to_nat mx)) (Z.to_nat (a - 1)) 1%Z)).
  assert (Hf : forall a, In a gattr -> f a = Ok (upd (repeat 0%Z (Z.to_nat mx)) (Z.to_nat (a - 1)) 1%Z) /\ (0 < a <= mx)%Z).
  { intros a Ha. destruct (Hg a Ha) as (P & l & y & Hl & Hy & Hle). specialize (M1 l y Hl Hy). unfold f.
    rewrite (proj2 (Z.ltb_lt 0 a)), (proj2 (Z.leb_le a mx)) by lia. cbn [andb oassert]. rewrite owrite_vec by (rewrite repeat_length; lia). split; [auto|lia]. }
  assert (Em : omap f gattr = Ok (map (fun a => upd (repeat 0%Z (Z.to_nat mx)) (Z.to_nat (a - 1)) 1%Z) gattr)).
  { clear -Hf. induction gattr as [|a g IH]; [reflexivity|]. cbn [omap map]. rewrite (proj1 (Hf a (or_introl eq_refl))). cbn [obind].
    rewrite IH by (intros; apply Hf; right; auto). reflexivity. }
  rw_bind Em. exists (map (fun a => upd (repeat 0%Z (Z.to_nat mx)) (Z.to_nat (a - 1)) 1%Z) gattr), (repeat BNone (List.length gattr)), (Z.to_nat mx).
  split; [reflexivity|]. split; [apply map_length|]. split; [reflexivity|]. split.
  - intros l y Hl Hy. specialize (M1 l y Hl Hy). lia.
  - intros b a Ea. rewrite nth_error_map, Ea. cbn [option_map]. eexists. split; [reflexivity|]. rewrite upd_length, repeat_length. split; [auto|].
    intros k Hk. destruct (Hf a (nth_error_In _ _ Ea)) as (_ & Ha). destruct (Z.eqb_spec (Z.of_nat k + 1) a) as [Eq|N].
    + replace k with (Z.to_nat (a - 1)) by lia. apply nth_upd_eq. rewrite repeat_length. lia.
    + rewrite nth_upd_ne by lia. apply nth_repeat.
Qed.

(** ** Visualization *)
Lemma vis_skip_spec v m : (0 < vi_interval v)%Z -> vis_skip v m = false <-> selected v m.
Proof.
  intros H. unfold vis_skip, selected. rewrite orb_false_iff, negb_false_iff, Z.ltb_ge, Z.eqb_eq. split; intros (A & B); (split; [exact A|]).
  - exists (Z.quot (Z.of_nat m) (vi_interval v)). pose proof (Z.quot_rem (Z.of_nat m) (vi_interval v) ltac:(lia)). lia.
  - destruct B as (k & ->). apply Z.rem_mul. lia.
Qed.

Lemma vis_check_spec ns v : vis_check ns v = true <->
  (0 <= vi_offset v < Z.of_nat ns /\ 0 < vi_interval v <= Z.of_nat ns)%Z.
Proof. unfold vis_check. rewrite !andb_true_iff, !Z.leb_le, !Z.ltb_lt. lia. Qed.

Lemma vis_save_loop v (colls : list bool) n : n <= List.length colls ->
  (forall m, m < n -> vis_skip v m = false -> nth m colls false = true) ->
  ofor n (fun saved m => if vis_skip v m then Ok saved else let* c := oread colls m in oassert c (Ok (saved ++ [m]))) []
  = Ok (filter (fun m => negb (vis_skip v m)) (seq 0 n)).
Proof.
  intros L H. induction n; [reflexivity|]. rewrite ofor_S, IHn; [|lia|intros; apply H; auto; lia]. cbn [obind]. rewrite seq_S, filter_app. cbn [Nat.add filter].
  destruct (vis_skip v n) eqn:E; cbn [negb]; [rewrite app_nil_r; auto|]. rewrite (oread_nth colls n false) by lia. cbn [obind]. rewrite H by (auto; lia). reflexivity.
Qed.

Lemma vis_save_ok ns v : vi_save v = true -> vi_unified v = false ->
  (0 <= vi_offset v < Z.of_nat ns /\ 0 < vi_interval v <= Z.of_nat ns)%Z ->
  exists colls saved, vis_init ns v = Ok colls /\ vis_save ns v colls = Ok saved /\
    List.length colls = ns /\ (forall m, m < ns -> nth m colls false = true <-> selected v m) /\
    NoDup saved /\ forall m, In m saved <-> m < ns /\ selected v m.
Proof.
  intros Hs Hu Hc. apply vis_check_spec in Hc as Hk. exists (map (fun m => negb (vis_skip v m)) (seq 0 ns)), (filter (fun m => negb (vis_skip v m)) (seq 0 ns)).
  assert (Nth : forall m, m < ns -> nth m (map (fun m => negb (vis_skip v m)) (seq 0 ns)) false = negb (vis_skip v m)) by (intros; apply nth_map_seq; auto).
  assert (L : List.length (map (fun m => negb (vis_skip v m)) (seq 0 ns)) = ns) by (rewrite map_length, seq_length; auto).
  unfold vis_init, vis_save. rewrite Hs, Hu, Hk. cbn [negb orb oassert andb].
  split; [reflexivity|]. split; [rewrite L; apply vis_save_loop; [lia|]; intros m Hm E; rewrite Nth, E by auto; auto|]. split; [exact L|]. split.
  { intros m Hm. rewrite Nth, negb_true_iff by auto. apply vis_skip_spec. lia. }
  split; [apply NoDup_filter, seq_NoDup|]. intros m. rewrite filter_In, in_seq, negb_true_iff, vis_skip_spec by lia. intuition lia.
Qed.

Lemma vis_bad_refused ns v : vi_save v = true -> vi_unified v = false ->
  ~ (0 <= vi_offset v < Z.of_nat ns /\ 0 < vi_interval v <= Z.of_nat ns)%Z -> vis_init ns v = Abort.
Proof.
  intros Hs Hu H. unfold vis_init. rewrite Hs, Hu. cbn [negb]. destruct (vis_check ns v) eqn:E; auto. apply vis_check_spec in E. contradiction.
Qed.

Lemma vis_unified ns v : vi_save v = true -> vi_unified v = true ->
  vis_init ns v = Ok [true] /\ vis_save ns v [true] = Ok [0] /\ vis_save_step ns v [true] = Ok [0].
Proof.
  intros Hs Hu. unfold vis_init, vis_save_step, vis_save. rewrite Hs, Hu. cbn [negb orb oassert andb List.length].
  split; [reflexivity|]. split; reflexivity.
Qed.

Lemma vis_off ns v colls : vi_save v = false -> vis_init ns v = Ok [] /\ vis_save ns v colls = Ok [] /\ vis_save_step ns v colls = Ok [].
Proof. intros H. unfold vis_init, vis_save_step, vis_save. rewrite H. auto. Qed.

Lemma step_check (colls : list bool) n : n <= List.length colls ->
  ofor n (fun (_ : unit) m => let* c := oread colls m in oguard c (Ok tt)) tt = if forallb (fun m => nth m colls false) (seq 0 n) then Ok tt else UB.
Proof.
  induction n; intros H; [reflexivity|]. rewrite ofor_S, IHn by lia. rewrite seq_S, forallb_app. cbn [forallb Nat.add].
  destruct (forallb (fun m => nth m colls false) (seq 0 n)); cbn [obind andb]; auto. rewrite (oread_nth colls n false) by lia. cbn [obind]. rewrite andb_true_r.
  destruct (nth n colls false); auto.
Qed.

Lemma forallb_exists_neg n (colls : list bool) : forallb (fun m => nth m colls false) (seq 0 n) = false -> exists m, m < n /\ nth m colls false = false.
Proof.
  induction n; [discriminate|]. rewrite seq_S, forallb_app. cbn [forallb Nat.add]. rewrite andb_true_r, andb_false_iff. intros [H|H].
  - destruct (IHn H) as (m & Hm & E). exists m. split; [lia|auto].
  - exists n. split; [lia|auto].
Qed.

(** Saving a step works exactly if every subdomain is selected. *)
Lemma vis_step_cases ns v colls : vi_save v = true -> vi_unified v = false -> vis_init ns v = Ok colls ->
  ((forall m, m < ns -> selected v m) /\ vis_save_step ns v colls = Ok (seq 0 ns)) \/
  ((exists m, m < ns /\ ~ selected v m) /\ vis_save_step ns v colls = UB).
Proof.
  intros Hs Hu E. destruct (vis_check ns v) eqn:Hk.
  2:{ unfold vis_init in E. rewrite Hs, Hu, Hk in E. discriminate. }
  apply vis_check_spec in Hk as Hc. destruct (vis_save_ok ns v Hs Hu Hc) as (c & s & E1 & E2 & L & N & _). rewrite E in E1. injection E1 as <-.
  unfold vis_save_step. rewrite Hs. cbn [negb]. rewrite step_check by lia. rewrite L.
  destruct (forallb (fun m => nth m colls false) (seq 0 ns)) eqn:F; cbn [obind].
  - left. rewrite forallb_forall in F. assert (Sel : forall m, m < ns -> selected v m) by (intros m Hm; apply N; auto; apply F; apply in_seq; lia).
    split; [exact Sel|]. rewrite E2. f_equal. unfold vis_save in E2. rewrite Hs, Hu, Hk in E2. cbn [negb orb oassert andb] in E2. rewrite L in E2.
    rewrite vis_save_loop in E2; [|lia|intros; apply F; apply in_seq; lia]. injection E2 as <-.
    assert (forall l, (forall m, In m l -> m < ns) -> filter (fun m => negb (vis_skip v m)) l = l) as K.
    { induction l as [|x l IH]; intros Hl; auto. cbn [filter]. rewrite (proj2 (vis_skip_spec v x ltac:(lia))) by (apply Sel, Hl; left; auto).
      cbn [negb]. rewrite IH; auto. intros; apply Hl; right; auto. }
    apply K. intros m Hm. apply in_seq in Hm. lia.
  - right. split; [|reflexivity]. destruct (forallb_exists_neg ns colls F) as (m & Hm & Em). exists m. split; [auto|]. intros Sm. apply N in Sm; auto. congruence.
Qed.

(** ** Solution files *)
Lemma fput_eq fs n f : fput fs n f n = Some f.
Proof. unfold fput. rewrite String.eqb_refl. auto. Qed.
Lemma fput_ne fs n f x : x <> n -> fput fs n f x = fs x.
Proof. intros H. unfold fput. destruct (String.eqb_spec x n); congruence. Qed.

Lemma sol_round_trip c fs name u fs' u0 : sc_save c = true -> save_solution c fs name u = Ok fs' ->
  load_solution fs' (sol_name c name) u0 = (if List.length u =? List.length u0 then Ok u else Abort) /\
  forall x, x <> sol_name c name -> fs' x = fs x.
Proof.
  intros S E. unfold save_solution in E. rewrite S in E. cbn [negb] in E. cbv zeta in E. apply oassert_ok in E as (_ & E). injection E as <-. split.
  - unfold load_solution. rewrite fput_eq. cbn [sf_sol]. destruct (List.length u =? List.length u0); auto.
  - intros x Hx. apply fput_ne. auto.
Qed.

Lemma sol_saves c fs name u : sc_save c = true -> sc_can c (sol_name c name) = true -> exists fs', save_solution c fs name u = Ok fs'.
Proof. intros S C. unfold save_solution. rewrite S. cbn [negb]. cbv zeta. rewrite C. cbn [oassert]. eauto. Qed.

Lemma load_only_matching fs name u d : load_solution fs name u = Ok d ->
  exists f, fs name = Some f /\ sf_sol f = Some ([List.length u], d).
Proof.
  unfold load_solution. destruct (fs name) as [f|]; [|discriminate]. destruct (sf_sol f) as [[dims d']|] eqn:E; [|discriminate].
  destruct dims as [|n [|]]; try discriminate. destruct (Nat.eqb_spec n (List.length u)); [|discriminate]. subst. intros H; injection H as <-. eauto.
Qed.
Lemma load_never_ub fs name u : load_solution fs name u <> UB.
Proof.
  unfold load_solution. destruct (fs name) as [f|]; [|discriminate]. destruct (sf_sol f) as [[dims d']|] eqn:E; [|discriminate].
  destruct (match dims with [n] => n =? List.length u | _ => false end); discriminate.
Qed.

Lemma timed_round_trip c fs name u step time : sc_save c = true -> name <> ""%string -> sc_can c name = true ->
  exists fs', save_with_time c fs name u step time = Ok fs' /\
    (forall u0, List.length u0 = List.length u -> load_with_time fs' name u0 = Ok (u, step, time)) /\
    forall x, x <> name -> fs' x = fs x.
Proof.
  intros S N C. assert (sol_name c name = name) as Nm by (unfold sol_name; destruct (String.eqb_spec name ""); congruence).
  unfold save_with_time, save_solution. rewrite S. cbn [negb]. cbv zeta. rewrite Nm, C. cbn [oassert obind]. rewrite fput_eq.
  unfold add_step, add_time. cbn [sf_step sf_time sf_sol obind].
  eexists. split; [reflexivity|]. split.
  - intros u0 L. unfold load_with_time, load_solution. rewrite fput_eq. cbn [sf_sol]. rewrite L, Nat.eqb_refl. cbn [obind sf_step sf_time]. auto.
  - intros x Hx. rewrite !fput_ne by auto. auto.
Qed.

Lemma timed_off_aborts c fs name u step time : sc_save c = false -> fs name = None -> save_with_time c fs name u step time = Abort.
Proof. intros S E. unfold save_with_time, save_solution. rewrite S. cbn [negb obind]. rewrite E. auto. Qed.
Lemma timed_default_aborts c fs u step time : sc_save c = true -> fs ""%string = None -> save_with_time c fs "" u step time = Abort.
Proof.
  intros S E. unfold save_with_time, save_solution. rewrite S. cbn [negb]. cbv zeta. destruct (sc_can c (sol_name c "")); cbn [oassert obind]; auto.
  rewrite fput_ne, E; auto. unfold sol_name. cbn [String.eqb]. destruct (sc_dir c); discriminate.
Qed.

(** ** Relative errors *)
Lemma relative_error_ok ns nv en : exists r, relative_error ns nv en = Ok r /\ List.length r = nv /\
  forall v, v < nv -> vnth r v = (sqrt (rsum ns (fun m => fst (en m v) * fst (en m v))) / sqrt (rsum ns (fun m => snd (en m v) * snd (en m v))))%R.
Proof.
  unfold relative_error.
  set (inner := fun '((norm, err) : vec * vec) (m : nat) => ofor nv (fun '(norm, err) v =>
    let '(e, n) := en m v in let* a := oread norm v in let* b := oread err v in
    let* norm := owrite norm v (a + n * n)%R in let* err := owrite err v (b + e * e)%R in Ok (norm, err)) (norm, err)).
  assert (Inn : forall m (norm err : vec), List.length norm = nv -> List.length err = nv -> exists norm' err', inner (norm, err) m = Ok (norm', err') /\
     List.length norm' = nv /\ List.length err' = nv /\ forall v, v < nv -> vnth norm' v = (vnth norm v + snd (en m v) * snd (en m v))%R /\
       vnth err' v = (vnth err v + fst (en m v) * fst (en m v))%R).
  { intros m norm err Ln Le. unfold inner.
    destruct (ofor_inv nv (fun '(norm, err) v =>
      let '(e, n) := en m v in let* a := oread norm v in let* b := oread err v in
      let* norm := owrite norm v (a + n * n)%R in let* err := owrite err v (b + e * e)%R in Ok (norm, err))
      (fun k st => List.length (fst st) = nv /\ List.length (snd st) = nv /\
        (forall v, v < k -> vnth (fst st) v = (vnth norm v + snd (en m v) * snd (en m v))%R /\ vnth (snd st) v = (vnth err v + fst (en m v) * fst (en m v))%R) /\
        (forall v, k <= v -> vnth (fst st) v = vnth norm v /\ vnth (snd st) v = vnth err v)) (norm, err)) as ([n' e'] & E & I1 & I2 & I3 & I4).
    - cbn [fst snd]. split; [auto|]. split; [auto|]. split; [intros; lia|auto].
    - intros k [n1 e1] Hk (I1 & I2 & I3 & I4). cbn [fst snd] in *. destruct (en m k) as [e n] eqn:Een.
      rewrite (oread_vnth n1 k) by lia. cbn [obind]. rewrite (oread_vnth e1 k) by lia. cbn [obind]. rewrite owrite_vec by lia. cbn [obind].
      rewrite owrite_vec by lia. cbn [obind]. eexists. split; [reflexivity|]. cbn [fst snd]. rewrite !upd_length. split; [auto|]. split; [auto|]. split.
      + intros v Hv. destruct (Nat.eq_dec v k) as [->|N].
        * rewrite !vnth_upd_eq by lia. destruct (I4 k ltac:(lia)) as (-> & ->). rewrite Een. auto.
        * rewrite !vnth_upd_ne by lia. apply I3. lia.
      + intros v Hv. rewrite !vnth_upd_ne by lia. apply I4. lia.
    - exists n', e'. split; [exact E|]. split; [exact I1|]. split; [exact I2|]. exact I3. }
  destruct (ofor_inv ns inner (fun k st => List.length (fst st) = nv /\ List.length (snd st) = nv /\
     forall v, v < nv -> vnth (fst st) v = rsum k (fun m => snd (en m v) * snd (en m v))%R /\ vnth (snd st) v = rsum k (fun m => fst (en m v) * fst (en m v))%R)
     (repeat 0%R nv, repeat 0%R nv)) as ([n e] & E & I1 & I2 & I3).
  - cbn [fst snd]. rewrite !repeat_length. split; [auto|]. split; [auto|]. intros v Hv. unfold vnth. rewrite !nth_repeat. auto.
  - intros k [n1 e1] Hk (I1 & I2 & I3). cbn [fst snd] in *. destruct (Inn k n1 e1 I1 I2) as (n2 & e2 & E & J1 & J2 & J3). exists (n2, e2).
    split; [exact E|]. cbn [fst snd]. split; [auto|]. split; [auto|]. intros v Hv. destruct (J3 v Hv) as (-> & ->). destruct (I3 v Hv) as (-> & ->). auto.
  - cbn [fst snd] in *. exists (map (fun v => (sqrt (vnth e v) / sqrt (vnth n v))%R) (seq 0 nv)). split.
    + rw_bind E. cbv beta iota. assert (K : forall l, (forall v, In v l -> v < nv) -> omap (fun v => let* n0 := oread n v in let* e0 := oread e v in Ok (sqrt e0 / sqrt n0)%R) l
        = Ok (map (fun v => (sqrt (vnth e v) / sqrt (vnth n v))%R) l)).
      { induction l as [|v l IH]; intros Hl; [reflexivity|]. cbn [omap map]. specialize (Hl v (or_introl eq_refl)) as Hv.
        rewrite (oread_vnth n v), (oread_vnth e v) by lia. cbn [obind]. rewrite IH by (intros; apply Hl; right; auto). reflexivity. }
      apply K. intros v Hv. apply in_seq in Hv. lia.
    + split; [rewrite map_length, seq_length; auto|]. intros v Hv. unfold vnth at 1. rewrite (nth_map_seq _ nv 0 v) by auto. cbn [Nat.add].
      destruct (I3 v Hv) as (-> & ->). auto.
Qed.

(** ** Element files *)
Lemma group_find_snoc {X} (l : list (string * X)) n x k :
  group_find (l ++ [(n, x)]) k = match group_find l k with Some y => Some y | None => if String.eqb n k then Some x else None end.
Proof. induction l as [|[a y] l IH]; cbn [group_find app]; auto. destruct (String.eqb a k); auto. Qed.

(** Adding all names of a list: it works iff they are distinct. *)
Lemma add_groups {X} (names : list string) (xs : list X) n : n <= List.length names -> n <= List.length xs -> NoDup names ->
  exists l, ofor n (fun l c => let* a := oread names c in let* e := oread xs c in group_add l a e) [] = Ok l /\
    (forall k, (forall i, i < n -> nth_error names i <> Some k) -> group_find l k = None) /\
    forall i a x, i < n -> nth_error names i = Some a -> nth_error xs i = Some x -> group_find l a = Some x.
Proof.
  intros Hn Hx ND. induction n.
  - exists []. split; [reflexivity|]. split; [auto|]. intros; lia.
  - destruct IHn as (l & E & A & B); try lia. rewrite ofor_S, E. cbn [obind].
    destruct (nth_error names n) as [a|] eqn:Ea; [|apply nth_error_None in Ea; lia].
    destruct (nth_error xs n) as [x|] eqn:Ex; [|apply nth_error_None in Ex; lia].
    unfold oread. rewrite Ea, Ex. cbn [obind]. unfold group_add. rewrite A.
    2:{ intros i Hi E'. rewrite NoDup_nth_error in ND. assert (i = n) by (apply ND; [lia|congruence]). lia. }
    eexists. split; [reflexivity|]. split.
    + intros k Hk. rewrite group_find_snoc, A by (intros; apply Hk; lia). destruct (String.eqb_spec a k) as [->|]; auto.
      exfalso. apply (Hk n); [lia|auto].
    + intros i b y Hi Eb Ey. rewrite group_find_snoc. destruct (Nat.eq_dec i n) as [->|N].
      * assert (b = a) by congruence. assert (y = x) by congruence. subst. rewrite A.
        -- rewrite String.eqb_refl. auto.
        -- intros j Hj E'. rewrite NoDup_nth_error in ND. assert (j = n) by (apply ND; [lia|congruence]). lia.
      * rewrite (B i b y) by (auto; lia). auto.
Qed.

Lemma omap_seq_list {A} (f : nat -> outcome A) (l : list A) n : List.length l = n ->
  (forall i, i < n -> exists x, nth_error l i = Some x /\ f i = Ok x) -> omap f (seq 0 n) = Ok l.
Proof.
  intros L H. assert (G : forall k a, (forall i, i < k -> exists x, nth_error (skipn a l) i = Some x /\ f (a + i) = Ok x) -> List.length (skipn a l) = k -> omap f (seq a k) = Ok (skipn a l)).
  { induction k; intros a Hk Lk; [destruct (skipn a l); [reflexivity|discriminate]|].
    cbn [seq omap]. destruct (Hk 0 ltac:(lia)) as (x & E1 & E2). rewrite Nat.add_0_r in E2. rewrite E2. cbn [obind].
    assert (Es : skipn a l = x :: skipn (S a) l).
    { destruct (skipn a l) as [|y t] eqn:Q; [discriminate|]. cbn in E1. injection E1 as ->. f_equal.
      change (S a) with (1 + a). rewrite Nat.add_comm, <- skipn_plus, Q. reflexivity. }
    rewrite IHk, Es; [reflexivity| |rewrite Es in Lk; cbn [List.length] in Lk; lia].
    intros i Hi. destruct (Hk (S i) ltac:(lia)) as (y & F1 & F2). exists y. rewrite Es in F1. cbn in F1. split; [auto|].
    replace (S a + i) with (a + S i) by lia. auto. }
  specialize (G n 0). rewrite skipn_O in G. apply G; auto.
Qed.

Lemma elems_saved {A} names nbdr ports (comp : list (comp_elem A)) port :
  List.length comp = List.length names -> List.length nbdr = List.length names -> List.length port = List.length ports ->
  (forall c e k, nth_error comp c = Some e -> nth_error nbdr c = Some k -> List.length (ce_bdr e) = k) ->
  NoDup names -> NoDup ports ->
  exists f, save_elems names nbdr ports comp port = Ok f /\ ef_ncomp f = List.length names /\ ef_nport f = List.length ports /\
    (forall c n e, nth_error names c = Some n -> nth_error comp c = Some e -> group_find (ef_comp f) n = Some e) /\
    (forall p n x, nth_error ports p = Some n -> nth_error port p = Some x -> group_find (ef_port f) n = Some x).
Proof.
  intros Lc Ln Lp Hb Nn Np. unfold save_elems.
  destruct (add_groups names comp (List.length names) ltac:(lia) ltac:(lia) Nn) as (cs & Ec & _ & Fc).
  destruct (add_groups ports port (List.length ports) ltac:(lia) ltac:(lia) Np) as (ps & Ep & _ & Fp).
  assert (Ec' : ofor (List.length names) (fun l c => let* n := oread names c in let* e := oread comp c in let* k := oread nbdr c in
     let* l := group_add l n e in oassert (List.length (ce_bdr e) =? k) (Ok l)) [] = Ok cs).
  { rewrite <- Ec. apply ofor_ext. intros l c Hc.
    destruct (nth_error names c) as [n|] eqn:E1; [|apply nth_error_None in E1; lia].
    destruct (nth_error comp c) as [e|] eqn:E2; [|apply nth_error_None in E2; lia].
    destruct (nth_error nbdr c) as [k|] eqn:E3; [|apply nth_error_None in E3; lia].
    unfold oread. rewrite E1, E2, E3. cbn [obind]. rewrite (Hb c e k E2 E3), Nat.eqb_refl. destruct (group_add l n e); auto. }
  rw_bind Ec'. rw_bind Ep. eexists. split; [reflexivity|]. cbn [ef_ncomp ef_nport ef_comp ef_port]. split; [auto|]. split; [auto|]. split.
  - intros c n e E1 E2. apply (Fc c); auto. apply nth_error_Some. congruence.
  - intros p n x E1 E2. apply (Fp p); auto. apply nth_error_Some. congruence.
Qed.

(** Loading finds every element by name, whatever the order. *)
Lemma elems_loaded {A} names nbdr ports (f : elem_file A) comp port :
  List.length names <= ef_ncomp f -> List.length ports <= ef_nport f ->
  List.length comp = List.length names -> List.length port = List.length ports -> List.length nbdr = List.length names ->
  (forall c n e k, nth_error names c = Some n -> nth_error comp c = Some e -> nth_error nbdr c = Some k ->
     group_find (ef_comp f) n = Some e /\ List.length (ce_bdr e) = k /\ 0 < k) ->
  (forall p n x, nth_error ports p = Some n -> nth_error port p = Some x -> group_find (ef_port f) n = Some x) ->
  load_elems names nbdr ports f = Ok (comp, port).
Proof.
  intros Hn Hp Lc Lp Lb Fc Fp. unfold load_elems. rewrite (proj2 (Nat.leb_le _ _)) by auto. cbn [oassert].
  match goal with |- context [omap ?g (seq 0 (List.length names))] => assert (Ec : omap g (seq 0 (List.length names)) = Ok comp) end.
  { apply omap_seq_list; [auto|]. intros c Hc.
    destruct (nth_error names c) as [n|] eqn:E1; [|apply nth_error_None in E1; lia].
    destruct (nth_error comp c) as [e|] eqn:E2; [|apply nth_error_None in E2; lia].
    destruct (nth_error nbdr c) as [k|] eqn:E3; [|apply nth_error_None in E3; lia].
    destruct (Fc c n e k E1 E2 E3) as (G & Lk & Pk). exists e. split; [auto|]. unfold oread. rewrite E1. cbn [obind]. rewrite G, E3. cbn [obind].
    rewrite Lk, Nat.eqb_refl. cbn [oassert]. destruct (Nat.eqb_spec k 0); [lia|]. reflexivity. }
  rw_bind Ec. rewrite (proj2 (Nat.leb_le _ _)) by auto. cbn [oassert].
  match goal with |- context [omap ?g (seq 0 (List.length ports))] => assert (Ep : omap g (seq 0 (List.length ports)) = Ok port) end.
  { apply omap_seq_list; [auto|]. intros c Hc.
    destruct (nth_error ports c) as [n|] eqn:E1; [|apply nth_error_None in E1; lia].
    destruct (nth_error port c) as [e|] eqn:E2; [|apply nth_error_None in E2; lia].
    exists e. split; [auto|]. unfold oread. rewrite E1. cbn [obind]. rewrite (Fp c n e E1 E2). reflexivity. }
  rw_bind Ep. reflexivity.
Qed.

(** Port names *)
Lemma app_char_inj ch a1 a2 b1 b2 :
  no_char ch a1 -> no_char ch a2 -> (a1 ++ String ch b1 = a2 ++ String ch b2)%string -> a1 = a2 /\ b1 = b2.
Proof.
  revert a2. induction a1 as [|x a1 IH]; intros [|y a2] H1 H2 E; simpl in *.
  - inversion E; auto.
  - destruct H2 as [H2 _]. inversion E; subst; congruence.
  - destruct H1 as [H1 _]. inversion E; subst; congruence.
  - destruct H1, H2. inversion E; subst. destruct (IH a2) as [-> ->]; auto.
Qed.
Lemma no_char_mid ch a b : no_char ch (a ++ String ch b)%string -> False.
Proof. induction a as [|x a IH]; simpl; [intros [H _]; congruence|intros [_ H]; auto]. Qed.
Lemma app_char_inj_r ch a1 a2 b1 b2 :
  no_char ch b1 -> no_char ch b2 -> (a1 ++ String ch b1 = a2 ++ String ch b2)%string -> a1 = a2 /\ b1 = b2.
Proof.
  revert a2. induction a1 as [|x a1 IH]; intros [|y a2] H1 H2 E; simpl in *.
  - inversion E; auto.
  - inversion E; subst. exfalso. exact (no_char_mid _ _ _ H1).
  - inversion E; subst. exfalso. exact (no_char_mid _ _ _ H2).
  - inversion E; subst. destruct (IH a2) as [-> ->]; auto.
Qed.

Lemma digits_no_char ch u :
  (forall d, In d ["0";"1";"2";"3";"4";"5";"6";"7";"8";"9"]%char -> d <> ch) -> no_char ch (NilEmpty.string_of_uint u).
Proof. intros H. induction u; simpl; auto; split; auto; apply H; simpl; tauto. Qed.

Lemma index_key_no ch n : (forall d, In d ["0";"1";"2";"3";"4";"5";"6";"7";"8";"9"]%char -> d <> ch) -> no_char ch (index_key n).
Proof. intros H. unfold index_key. apply digits_no_char; auto. Qed.

Lemma no_char_append ch a b : no_char ch a -> no_char ch b -> no_char ch (a ++ b)%string.
Proof. induction a; simpl; auto. intros (? & ?) ?. split; auto. Qed.

Lemma string_app_assoc (a b c : string) : ((a ++ b) ++ c = a ++ (b ++ c))%string.
Proof. induction a; simpl; congruence. Qed.

Lemma port_name_inj c1 c2 a1 a2 d1 d2 b1 b2 : no_char ":" c1 -> no_char ":" d1 ->
  port_name c1 c2 a1 a2 = port_name d1 d2 b1 b2 -> c1 = d1 /\ c2 = d2 /\ a1 = b1 /\ a2 = b2.
Proof.
  intros N1 N2 E. unfold port_name in E. cbn [String.append] in E. apply app_char_inj in E as (-> & E); auto.
  assert (D : forall n m, no_char "-" (index_key n ++ String ":" (index_key m))%string).
  { intros n m. apply no_char_append; [|simpl; split; [discriminate|]]; apply index_key_no; simpl; intros d Hd; intuition (subst; discriminate). }
  apply app_char_inj_r in E as (-> & E); auto. apply app_char_inj in E as (E1 & E2).
  - apply index_key_inj in E1, E2. auto.
  - apply index_key_no; simpl; intros d Hd; intuition (subst; discriminate).
  - apply index_key_no; simpl; intros d Hd; intuition (subst; discriminate).
Qed.

(** ** What a load can return *)

Lemma group_find_in {X} (l : list (string * X)) n x : group_find l n = Some x -> In (n, x) l.
Proof.
  induction l as [|[k y] l IH]; cbn [group_find]; [discriminate|]. destruct (String.eqb_spec k n) as [->|]; intros H.
  - injection H as ->. left. auto.
  - right. auto.
Qed.

Lemma group_add_in {X} (l l' : list (string * X)) n x : group_add l n x = Ok l' -> l' = l ++ [(n, x)].
Proof. unfold group_add. destruct (group_find l n); intros H; [discriminate|injection H as <-; auto]. Qed.

Lemma ofor_sound {S} n (f : S -> nat -> outcome S) (I : S -> Prop) s s' :
  I s -> (forall a i b, i < n -> I a -> f a i = Ok b -> I b) -> ofor n f s = Ok s' -> I s'.
Proof.
  intros H0 H. unfold ofor. assert (G : forall l s, (forall i, In i l -> i < n) -> I s -> ofold f l s = Ok s' -> I s').
  { induction l as [|i l IH]; intros a Hl Ha E; cbn [ofold] in E; [injection E as <-; auto|].
    apply obind_ok in E. destruct E as (b & E1 & E2). apply (IH b); auto; [intros j Hj; apply Hl; right; auto|].
    apply (H a i b); auto. apply Hl. left. auto. }
  apply G; auto. intros i Hi. apply in_seq in Hi. lia.
Qed.

Lemma save_elems_inv {A} names nbdr ports (comp : list (comp_elem A)) port f : save_elems names nbdr ports comp port = Ok f ->
  (forall n e, In (n, e) (ef_comp f) -> exists d, nth_error names d = Some n /\ nth_error comp d = Some e) /\
  (forall n x, In (n, x) (ef_port f) -> exists d, nth_error ports d = Some n /\ nth_error port d = Some x).
Proof.
  unfold save_elems. intros E. apply obind_ok in E. destruct E as (cs & E1 & E). apply obind_ok in E. destruct E as (ps & E2 & E).
  injection E as <-. cbn [ef_comp ef_port]. split.
  - revert E1. apply (ofor_sound _ _ (fun l => forall n e, In (n, e) l -> exists d, nth_error names d = Some n /\ nth_error comp d = Some e)).
    + intros n e [].
    + intros l i l' Hi Hl E. apply obind_ok in E. destruct E as (n & N & E). apply obind_ok in E. destruct E as (e & C & E).
      apply obind_ok in E. destruct E as (k & K & E). apply obind_ok in E. destruct E as (l1 & G & E). apply oassert_ok in E. destruct E as (_ & E).
      injection E as <-. apply group_add_in in G. subst l1. intros n' e' I. apply in_app_or in I. destruct I as [I|[I|[]]]; [auto|].
      injection I as <- <-. exists i. split; apply oread_ok; auto.
  - revert E2. apply (ofor_sound _ _ (fun l => forall n e, In (n, e) l -> exists d, nth_error ports d = Some n /\ nth_error port d = Some e)).
    + intros n e [].
    + intros l i l' Hi Hl E. apply obind_ok in E. destruct E as (n & N & E). apply obind_ok in E. destruct E as (e & C & E).
      apply group_add_in in E. subst l'. intros n' e' I. apply in_app_or in I. destruct I as [I|[I|[]]]; [auto|].
      injection I as <- <-. exists i. split; apply oread_ok; auto.
Qed.

Lemma load_elems_inv {A} names nbdr ports (f : elem_file A) comp port : load_elems names nbdr ports f = Ok (comp, port) ->
  List.length comp = List.length names /\ List.length port = List.length ports /\
  (forall c n e, nth_error names c = Some n -> nth_error comp c = Some e ->
     In (n, e) (ef_comp f) /\ nth_error nbdr c = Some (List.length (ce_bdr e))) /\
  (forall p n x, nth_error ports p = Some n -> nth_error port p = Some x -> In (n, x) (ef_port f)).
Proof.
  unfold load_elems. intros E. apply oassert_ok in E. destruct E as (_ & E). apply obind_ok in E. destruct E as (cs & E1 & E).
  apply oassert_ok in E. destruct E as (_ & E). apply obind_ok in E. destruct E as (ps & E2 & E). injection E as <- <-.
  apply CompProofs.omap_ok in E1, E2.
  assert (Lc : List.length cs = List.length names).
  { transitivity (List.length (seq 0 (List.length names))); [|apply seq_length]. clear - E1. induction E1; cbn; auto. }
  assert (Lp : List.length ps = List.length ports).
  { transitivity (List.length (seq 0 (List.length ports))); [|apply seq_length]. clear - E2. induction E2; cbn; auto. }
  split; [exact Lc|]. split; [exact Lp|]. split.
  - intros c n e N C. assert (Hc : c < List.length names) by (apply nth_error_Some; congruence).
    pose proof (proj2 (CompProofs.Forall2_nth_error _ _ _ E1) c c e) as Q.
    rewrite nth_error_seq in Q by exact Hc. specialize (Q eq_refl C).
    apply obind_ok in Q. destruct Q as (n' & N' & Q). apply oread_ok in N'. rewrite N in N'. injection N' as <-.
    destruct (group_find (ef_comp f) n) as [e'|] eqn:G; [|discriminate]. apply obind_ok in Q. destruct Q as (k & K & Q).
    apply oassert_ok in Q. destruct Q as (Q1 & Q). apply oassert_ok in Q. destruct Q as (_ & Q). injection Q as <-.
    split; [apply group_find_in; auto|]. apply oread_ok in K. apply Nat.eqb_eq in Q1. rewrite Q1. auto.
  - intros p n x N C. assert (Hc : p < List.length ports) by (apply nth_error_Some; congruence).
    pose proof (proj2 (CompProofs.Forall2_nth_error _ _ _ E2) p p x) as Q.
    rewrite nth_error_seq in Q by exact Hc. specialize (Q eq_refl C).
    apply obind_ok in Q. destruct Q as (n' & N' & Q). apply oread_ok in N'. rewrite N in N'. injection N' as <-.
    destruct (group_find (ef_port f) n) as [e'|] eqn:G; [|discriminate]. injection Q as <-. apply group_find_in; auto.
Qed.
