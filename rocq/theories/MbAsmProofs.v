(** The global ROM matrix is the sum of its contributions. *)
From Coq Require Import Reals List Bool Lia Arith ZArith String Lra.
From Verif Require Import Outcome ListLemmas LaBase BlockVec RomModel RomSpec RomProofs RomOpProofs MbModel MbSpec MbVecProofs MbFlowProofs MbMiscProofs.
Import ListNotations.
Local Open Scope list_scope.
Local Open Scope nat_scope.

(** Sizes of the blocks that exist. *)
Definition sized (nb : nat) (size : nat -> nat) (B : blockmat) : Prop :=
  forall I J X, I < nb -> J < nb -> B I J = Some X -> fm_h X = size I /\ fm_w X = size J.

Lemma bm_set_val B r c M I J p q :
  val (bm_set B r c M I J) p q = if (r =? I) && (c =? J) then fm_val M p q else val (B I J) p q.
Proof.
  unfold bm_set. rewrite (Nat.eqb_sym I r), (Nat.eqb_sym J c). destruct ((r =? I) && (c =? J)); reflexivity.
Qed.

Section Add.
  Variables (off : list nat) (nb : nat) (size : nat -> nat) (ridx cidx : list nat) (mats : mblocks).
  Hypothesis O : List.length off = S nb /\ nth 0 off 0 = 0 /\ (forall i, i < nb -> nth (S i) off 0 = nth i off 0 + size i).
  Hypothesis Lr : List.length ridx = mb_r mats.
  Hypothesis Lc : List.length cidx = mb_c mats.
  Hypothesis Pr : 0 < List.length ridx.
  Hypothesis Pc : 0 < List.length cidx.
  Hypothesis Hr : forall i, i < List.length ridx -> nth i ridx 0 < nb.
  Hypothesis Hc : forall i, i < List.length cidx -> nth i cidx 0 < nb.
  Hypothesis Hs : forall i j X, i < List.length ridx -> j < List.length cidx -> mb_get mats i j = Some X ->
    fm_h X = size (nth i ridx 0) /\ fm_w X = size (nth j cidx 0).

  Let body := fun (i : nat) (B : blockmat) (j : nat) =>
    match mb_get mats i j with
    | None => Ok B
    | Some M =>
        let* r := oread ridx i in
        let* c := oread cidx j in
        let* r0 := oread off r in let* r1 := oread off (r + 1) in
        let* c0 := oread off c in let* c1 := oread off (c + 1) in
        oassert ((fm_h M =? r1 - r0) && (fm_w M =? c1 - c0)) (
        let old := match B r c with Some X => X | None => FMat (r1 - r0) (c1 - c0) (fun _ _ => 0%R) end in
        Ok (bm_set B r c (FMat (fm_h old) (fm_w old) (fun p q => fm_val old p q + fm_val M p q)%R)))
    end.

  Definition term (i j I J p q : nat) : R := ind ((nth i ridx 0 =? I) && (nth j cidx 0 =? J)) (val (mb_get mats i j) p q).

  Lemma body_ok i j B : i < List.length ridx -> j < List.length cidx -> sized nb size B ->
    exists B', body i B j = Ok B' /\ sized nb size B' /\ forall I J p q, val (B' I J) p q = (val (B I J) p q + term i j I J p q)%R.
  Proof.
    intros Hi Hj Sz. destruct O as (L & Z & Os). unfold body, term. destruct (mb_get mats i j) as [M|] eqn:EM.
    - rewrite (oread_nth ridx i 0), (oread_nth cidx j 0) by auto. cbn [obind]. pose proof (Hr i Hi) as Ri. pose proof (Hc j Hj) as Cj.
      set (r := nth i ridx 0) in *. set (c := nth j cidx 0) in *.
      rewrite (oread_nth off r 0), (oread_nth off (r + 1) 0), (oread_nth off c 0), (oread_nth off (c + 1) 0) by lia. cbn [obind].
      destruct (Hs i j M Hi Hj EM) as (Eh & Ew). fold r c in Eh, Ew.
      assert (D1 : nth (r + 1) off 0 - nth r off 0 = size r) by (rewrite Nat.add_1_r, Os by auto; lia).
      assert (D2 : nth (c + 1) off 0 - nth c off 0 = size c) by (rewrite Nat.add_1_r, Os by auto; lia).
      rewrite D1, D2, Eh, Ew, !Nat.eqb_refl. cbn [andb oassert].
      set (old := match B r c with Some X => X | None => FMat (size r) (size c) (fun _ _ => 0%R) end).
      assert (Od : fm_h old = size r /\ fm_w old = size c).
      { unfold old. destruct (B r c) as [X|] eqn:EB; [apply Sz; auto|auto]. }
      assert (Ov : forall p q, fm_val old p q = val (B r c) p q) by (intros; unfold old; destruct (B r c); reflexivity).
      eexists. split; [reflexivity|]. split.
      + intros I J X HI HJ. unfold bm_set. destruct ((I =? r) && (J =? c)) eqn:Q; [|apply Sz; auto].
        apply andb_prop in Q as (Q1 & Q2). apply Nat.eqb_eq in Q1, Q2. subst I J. intros E. injection E as <-. exact Od.
      + intros I J p q. rewrite bm_set_val. destruct ((r =? I) && (c =? J)) eqn:Q; cbn [ind val fm_val]; [|ring].
        apply andb_prop in Q as (Q1 & Q2). apply Nat.eqb_eq in Q1, Q2. subst I J. rewrite Ov. reflexivity.
    - exists B. split; [reflexivity|]. split; [auto|]. intros. cbn [val]. unfold ind. destruct (_ && _); ring.
  Qed.

  Lemma row_ok i B : i < List.length ridx -> sized nb size B ->
    exists B', ofor (List.length cidx) (body i) B = Ok B' /\ sized nb size B' /\
      forall I J p q, val (B' I J) p q = (val (B I J) p q + rsum (List.length cidx) (fun j => term i j I J p q))%R.
  Proof.
    intros Hi Sz. destruct (ofor_inv (List.length cidx) (body i) (fun n B' => sized nb size B' /\
      forall I J p q, val (B' I J) p q = (val (B I J) p q + rsum n (fun j => term i j I J p q))%R) B) as (B' & E & S' & V).
    - split; [auto|]. intros. cbn [rsum]. ring.
    - intros n B1 Hn (S1 & V1). destruct (body_ok i n B1 Hi Hn S1) as (B2 & E2 & S2 & V2). exists B2. split; [auto|]. split; [auto|].
      intros. rewrite V2, V1. cbn [rsum]. ring.
    - exists B'. auto.
  Qed.

  Lemma add_ok B : sized nb size B ->
    exists B', add_to_block_matrix off ridx cidx mats B = Ok B' /\ sized nb size B' /\
      forall I J p q, val (B' I J) p q = (val (B I J) p q + rsum (List.length ridx) (fun i => rsum (List.length cidx) (fun j => term i j I J p q)))%R.
  Proof.
    intros Sz. unfold add_to_block_matrix. rewrite Lr, Lc, !Nat.eqb_refl. cbn [oassert]. rewrite <- Lr, <- Lc.
    destruct (Nat.eqb_spec (List.length ridx) 0); [lia|]. destruct (Nat.eqb_spec (List.length cidx) 0); [lia|]. cbn [negb oguard].
    destruct O as (L & Z & Os). rewrite L. replace (S nb - 1) with nb by lia.
    assert (F : forall l, (forall i, i < List.length l -> nth i l 0 < nb) -> forallb (fun i => i <? nb) l = true).
    { intros l Hl. apply forallb_forall. intros x Hx. apply (In_nth _ _ 0) in Hx as (k & Hk & <-). apply Nat.ltb_lt. auto. }
    rewrite !F by auto. cbn [oassert].
    destruct (ofor_inv (List.length ridx) (fun B i => ofor (List.length cidx) (body i) B) (fun n B' => sized nb size B' /\
      forall I J p q, val (B' I J) p q = (val (B I J) p q + rsum n (fun i => rsum (List.length cidx) (fun j => term i j I J p q)))%R) B) as (B' & E & S' & V).
    - split; [auto|]. intros. cbn [rsum]. ring.
    - intros n' B1 Hn (S1 & V1). destruct (row_ok n' B1 Hn S1) as (B2 & E2 & S2 & V2). exists B2. split; [auto|]. split; [auto|].
      intros. rewrite V2, V1. cbn [rsum]. ring.
    - exists B'. auto.
  Qed.
End Add.

Lemma ind_and a b x : ind (a && b) x = ind a (ind b x).
Proof. destruct a, b; reflexivity. Qed.
Lemma ind_0 b : ind b 0%R = 0%R.
Proof. destruct b; auto. Qed.
Lemma rsum_ind n b f : rsum n (fun i => ind b (f i)) = ind b (rsum n f).
Proof. destruct b; cbn [ind]; auto. apply rsum_zero. Qed.
Lemma ind_plus b x y : ind b (x + y)%R = (ind b x + ind b y)%R.
Proof. destruct b; cbn [ind]; ring. Qed.

Section Pick.
  Variable h : rom.
  Hypothesis W : rom_wf h.

  Lemma block_unknown m v : m < rh_nsub h -> v < num_block h -> unknown h m v.
  Proof. unfold num_block, unknown. destruct (rh_sep h); lia. Qed.
  Lemma unknown_block m v : unknown h m v -> m < rh_nsub h /\ v < num_block h.
  Proof. unfold num_block, unknown. destruct (rh_sep h); lia. Qed.
  Lemma num_block_pos : 0 < num_block h.
  Proof. unfold num_block. destruct W as (_ & H & _). destruct (rh_sep h); lia. Qed.

  Lemma midx_ok m : m < rh_nsub h -> midx h m = Ok (map (place h m) (seq 0 (num_block h))).
  Proof.
    intros Hm. unfold midx. apply omap_seq_list; [rewrite map_length, seq_length; auto|]. intros i Hi. exists (place h m i).
    rewrite nth_error_map_seq by auto. split; [reflexivity|]. apply block_index_place. apply block_unknown; auto.
  Qed.

  Lemma pick m M V f : m < rh_nsub h -> unknown h M V ->
    rsum (num_block h) (fun i => ind (place h m i =? place h M V) (f i)) = ind (m =? M) (f V).
  Proof.
    intros Hm U. apply unknown_block in U as (HM & HV). destruct (Nat.eqb_spec m M) as [->|N]; cbn [ind].
    - rewrite (rsum_single _ V); auto; [rewrite Nat.eqb_refl; auto|]. intros i Hi Ne.
      destruct (Nat.eqb_spec (place h M i) (place h M V)) as [E|]; auto. apply place_inj in E; try (apply block_unknown; auto). tauto.
    - rewrite (rsum_ext _ _ (fun _ => 0%R)); [apply rsum_zero|]. intros i Hi.
      destruct (Nat.eqb_spec (place h m i) (place h M V)) as [E|]; auto. apply place_inj in E; try (apply block_unknown; auto). tauto.
  Qed.

  Lemma pick2 m m' M V M' V' f : m < rh_nsub h -> m' < rh_nsub h -> unknown h M V -> unknown h M' V' ->
    rsum (num_block h) (fun i => rsum (num_block h) (fun j => ind ((place h m i =? place h M V) && (place h m' j =? place h M' V')) (f i j)))
    = ind ((m =? M) && (m' =? M')) (f V V').
  Proof.
    intros Hm Hm' U U'. rewrite (rsum_ext _ _ (fun i => ind (place h m i =? place h M V) (ind (m' =? M') (f i V')))).
    - rewrite pick by auto. symmetry. apply ind_and.
    - intros i Hi. rewrite (rsum_ext _ _ (fun j => ind (place h m i =? place h M V) (ind (place h m' j =? place h M' V') (f i j)))) by (intros; apply ind_and).
      rewrite rsum_ind. f_equal. apply pick; auto.
  Qed.
End Pick.

Section Assemble.
  Variables (a : asm) (ess : nat -> nat -> bool).
  Let h := as_rom a.
  Hypothesis A : asm_ok a.
  Hypothesis D : forall m b, m < rh_nsub h -> b < List.length (nth m (as_c2g a) []) -> ess m b = true <-> essential a m b.

  Let n := num_block h.
  Definition bsize (i : nat) : nat := nth (S i) (as_off a) 0 - nth i (as_off a) 0.
  Let good := sized (blocks h) bsize.

  Lemma asm_off : List.length (as_off a) = S (blocks h) /\ nth 0 (as_off a) 0 = 0 /\
    (forall i, i < blocks h -> nth (S i) (as_off a) 0 = nth i (as_off a) 0 + bsize i).
  Proof.
    destruct A as (_ & (L & Z & T) & _). split; [exact L|]. split; [exact Z|]. intros i Hi. unfold bsize.
    destruct (place_onto h i Hi) as (m & v & U & <-). fold h in T. rewrite T by auto. lia.
  Qed.

  Lemma bsize_place m v : unknown h m v -> bsize (place h m v) = basis_size h m v.
  Proof. intros U. destruct A as (_ & (_ & _ & T) & _). fold h in T. unfold bsize. rewrite T by auto. lia. Qed.

  (** Adding a set of blocks that fits subdomain [m]. *)
  Lemma add_sub m M B : m < rh_nsub h -> mb_fits M n (basis_size h m) -> good B ->
    exists B', add_to_block_matrix (as_off a) (map (place h m) (seq 0 n)) (map (place h m) (seq 0 n)) M B = Ok B' /\ good B' /\
      forall r v c w p q, unknown h r v -> unknown h c w ->
        val (B' (place h r v) (place h c w)) p q =
        (val (B (place h r v) (place h c w)) p q + ind ((m =? r) && (m =? c)) (val (mb_get M v w) p q))%R.
  Proof.
    intros Hm (Fr & Fc & Fs) G. destruct A as (W & _). fold h in W. pose proof (num_block_pos h W) as Pn. fold n in Pn.
    set (idx := map (place h m) (seq 0 n)).
    assert (Li : List.length idx = n) by (unfold idx; rewrite map_length, seq_length; auto).
    assert (Ni : forall i, i < n -> nth i idx 0 = place h m i) by (intros; unfold idx; rewrite nth_map_seq; auto).
    destruct (add_ok (as_off a) (blocks h) bsize idx idx M asm_off) with (B := B) as (B' & E & G' & V); try (rewrite ?Li; auto; fail).
    - rewrite Li. intros i Hi. rewrite Ni by auto. apply place_lt, block_unknown; auto.
    - rewrite Li. intros i Hi. rewrite Ni by auto. apply place_lt, block_unknown; auto.
    - rewrite Li. intros i j X Hi Hj EX. rewrite !Ni, !bsize_place by (auto; apply block_unknown; auto). apply (Fs i j X); auto.
    - exists B'. split; [exact E|]. split; [exact G'|]. intros r v c w p q Ur Uc. rewrite V, Li. f_equal.
      rewrite <- (pick2 h m m r v c w (fun i j => val (mb_get M i j) p q)) by auto. apply rsum_ext. intros i Hi. apply rsum_ext. intros j Hj.
      unfold term. rewrite !Ni by auto. reflexivity.
  Qed.

  Definition sub_part (m v w p q : nat) : R :=
    (val (mb_get (nth (comp_of h m) (as_comp a) no_blocks) v w) p q
     + rsum (List.length (nth m (as_c2g a) [])) (fun b => ind (ess m b)
         (val (mb_get (nth b (nth (comp_of h m) (as_bdr a) []) no_blocks) v w) p q)))%R.

  Lemma bdr_branch m b B c2g : m < rh_nsub h -> nth m (as_c2g a) [] = c2g -> b < List.length c2g -> 
    exists Bd, nth_error (as_bdr a) (comp_of h m) = Some Bd /\
    (let* ga := oread c2g b in
    match attr_find (as_gattr a) ga 0 with
    | None => Ok B
    | Some g =>
        let* bc := oread (as_bc a) g in
        if negb bc then Ok B
        else
          let* t := oread (as_btype a) g in
          if is_neumann t then Ok B
          else
            let* bl := oread (as_bdr a) (comp_of h m) in
            let* bm := oread bl b in
            add_to_block_matrix (as_off a) (map (place h m) (seq 0 n)) (map (place h m) (seq 0 n)) bm B
    end) = if ess m b then add_to_block_matrix (as_off a) (map (place h m) (seq 0 n)) (map (place h m) (seq 0 n)) (nth b Bd no_blocks) B else Ok B.
  Proof.
    intros Hm Ec Hb. destruct A as (W & _ & L1 & L2 & L3 & L4 & L5 & L6 & _). fold h in W, L1, L2, L3, L6. destruct W as (_ & _ & _ & Hcmp & _).
    destruct (nth_error (as_bdr a) (comp_of h m)) as [Bd|] eqn:EB; [|apply nth_error_None in EB; specialize (Hcmp m Hm); lia].
    assert (NB : nth (comp_of h m) (as_bdr a) [] = Bd) by (apply nth_error_nth; auto). exists Bd. split; [auto|].
    specialize (D m b Hm). rewrite Ec in D. specialize (D Hb). specialize (L6 m Hm). rewrite Ec, NB in L6.
    destruct (nth_error c2g b) as [ga|] eqn:Eg; [|apply nth_error_None in Eg; lia]. unfold oread at 1. rewrite Eg. cbn [obind].
    pose proof (attr_find_spec (as_gattr a) ga 0) as Sp. destruct (attr_find (as_gattr a) ga 0) as [g|].
    - destruct Sp as (_ & F). rewrite Nat.sub_0_r in F. assert (Hg : g < List.length (as_gattr a)) by (apply nth_error_Some; destruct F as (F & _); congruence).
      rewrite (oread_nth (as_bc a) g false) by lia. cbn [obind].
      assert (Ess : essential a m b <-> nth g (as_bc a) false = true /\ nth g (as_btype a) BNone <> BNeumann).
      { split.
        - intros (ga' & g' & E1 & E2 & E3 & E4). rewrite Ec, Eg in E1. injection E1 as <-. rewrite (first_at_fun _ _ _ _ F E2). auto.
        - intros (E3 & E4). exists ga, g. rewrite Ec. auto. }
      destruct (nth g (as_bc a) false) eqn:Ebc; cbn [negb].
      + rewrite (oread_nth (as_btype a) g BNone) by lia. cbn [obind].
        destruct (is_neumann (nth g (as_btype a) BNone)) eqn:Nm.
        * destruct (ess m b) eqn:Eb; auto. exfalso. destruct D as (D1 & _).
          destruct (proj1 Ess (D1 eq_refl)) as (_ & Nn). destruct (nth g (as_btype a) BNone); try discriminate. congruence.
        * destruct (ess m b) eqn:Eb.
          -- unfold oread at 1. rewrite EB. cbn [obind]. rewrite (oread_nth Bd b no_blocks) by lia. reflexivity.
          -- exfalso. destruct D as (_ & D2). assert (essential a m b) by (apply Ess; split; auto; intros Q; rewrite Q in Nm; discriminate).
             specialize (D2 H). discriminate.
      + destruct (ess m b) eqn:Eb; auto. exfalso. destruct D as (D1 & _). destruct (proj1 Ess (D1 eq_refl)). discriminate.
    - destruct (ess m b) eqn:Eb; auto. exfalso. destruct D as (D1 & _). destruct (D1 eq_refl) as (ga' & g' & E1 & (E2 & _) & _).
      rewrite Ec, Eg in E1. injection E1 as <-. apply nth_error_In in E2. contradiction.
  Qed.

  Lemma sub_ok m B : m < rh_nsub h -> good B ->
    exists B', assemble_sub a B m = Ok B' /\ good B' /\
      forall r v c w p q, unknown h r v -> unknown h c w ->
        val (B' (place h r v) (place h c w)) p q =
        (val (B (place h r v) (place h c w)) p q + ind ((m =? r) && (m =? c)) (sub_part m v w p q))%R.
  Proof.
    intros Hm G. pose proof A as (W & _ & L1 & L2 & L3 & _ & _ & L6 & Fc & Fb & _). fold h in W, L1, L2, L3, L6, Fc, Fb.
    pose proof W as (_ & _ & Lt & Hcmp & _). unfold assemble_sub. fold h.
    rewrite (oread_nth (rh_types h) m 0) by lia. cbn [obind]. rewrite midx_ok by auto. cbn [obind]. fold (comp_of h m). fold n.
    rewrite (oread_nth (as_comp a) (comp_of h m) no_blocks) by (specialize (Hcmp m Hm); lia). cbn [obind].
    destruct (add_sub m _ B Hm (Fc m Hm) G) as (B1 & E1 & G1 & V1). rewrite E1. cbn [obind].
    rewrite (oread_nth (as_c2g a) m []) by lia. cbn [obind].
    match goal with |- context [ofor _ ?f B1] => set (F := f) end.
    destruct (ofor_inv (List.length (nth m (as_c2g a) [])) F (fun k B' => good B' /\ forall r v c w p q, unknown h r v -> unknown h c w ->
        val (B' (place h r v) (place h c w)) p q =
        (val (B1 (place h r v) (place h c w)) p q + ind ((m =? r) && (m =? c)) (rsum k (fun b => ind (ess m b)
         (val (mb_get (nth b (nth (comp_of h m) (as_bdr a) []) no_blocks) v w) p q))))%R) B1) as (B2 & E2 & G2 & V2).
    - split; [auto|]. intros. cbn [rsum]. rewrite ind_0. ring.
    - intros b B2 Hb (G2 & V2). unfold F. destruct (bdr_branch m b B2 _ Hm eq_refl Hb) as (Bd & EB & Ebr). rewrite Ebr.
      assert (NB : nth (comp_of h m) (as_bdr a) [] = Bd) by (apply nth_error_nth; auto).
      destruct (ess m b) eqn:Ee.
      + specialize (Fb m b Hm Hb). rewrite NB in Fb. destruct (add_sub m _ B2 Hm Fb G2) as (B3 & E3 & G3 & V3). exists B3. split; [exact E3|].
        split; [exact G3|]. intros r v c w p q Ur Uc. rewrite V3, V2 by auto. cbn [rsum]. rewrite Ee, NB. cbn [ind]. rewrite ind_plus. ring.
      + exists B2. split; [reflexivity|]. split; [auto|]. intros r v c w p q Ur Uc. rewrite V2 by auto. cbn [rsum]. rewrite Ee. cbn [ind].
        rewrite Rplus_0_r. reflexivity.
    - exists B2. split; [exact E2|]. split; [exact G2|]. intros r v c w p q Ur Uc. rewrite V2, V1 by auto. unfold sub_part. rewrite ind_plus. ring.
  Qed.

  Definition port_part (P : nat * nat * nat) (r v c w p q : nat) : R :=
    rsum 2 (fun s => rsum 2 (fun t => ind ((sub_of_side P s =? r) && (sub_of_side P t =? c))
         (val (mb_get (nth (ptype P) (as_port a) no_blocks) (s * n + v) (t * n + w)) p q))).

  Lemma port_ok P B : In P (as_ports a) -> good B ->
    exists B', assemble_port a B P = Ok B' /\ good B' /\
      forall r v c w p q, unknown h r v -> unknown h c w ->
        val (B' (place h r v) (place h c w)) p q = (val (B (place h r v) (place h c w)) p q + port_part P r v c w p q)%R.
  Proof.
    intros HP G. pose proof A as (W & _ & _ & _ & _ & _ & _ & _ & _ & _ & Hp). fold h in W, Hp. specialize (Hp P HP).
    destruct P as [[m1 m2] ty]. unfold sub_of_side, ptype in Hp. cbn [fst snd Nat.eqb] in Hp. destruct Hp as (H1 & H2 & Ht & Fr & Fc & Fs).
    change (if rh_sep h then rh_nvar h else 1) with n in *. pose proof (num_block_pos h W) as Pn. fold n in Pn.
    unfold assemble_port. fold h. rewrite (oread_nth (as_port a) ty no_blocks) by auto. cbn [obind]. rewrite !midx_ok by auto. cbn [obind]. fold n.
    set (M := nth ty (as_port a) no_blocks) in *. set (idx := map (place h m1) (seq 0 n) ++ map (place h m2) (seq 0 n)).
    assert (Li : List.length idx = 2 * n) by (unfold idx; rewrite app_length, !map_length, !seq_length; lia).
    assert (N1 : forall i, i < n -> nth i idx 0 = place h m1 i).
    { intros. unfold idx. rewrite app_nth1 by (rewrite map_length, seq_length; auto). rewrite nth_map_seq; auto. }
    assert (N2 : forall i, i < n -> nth (n + i) idx 0 = place h m2 i).
    { intros. unfold idx. rewrite app_nth2 by (rewrite map_length, seq_length; lia). rewrite map_length, seq_length. rewrite nth_map_seq by lia. f_equal. lia. }
    assert (Rg : forall i, i < 2 * n -> nth i idx 0 < blocks h /\ bsize (nth i idx 0) = if i <? n then basis_size h m1 i else basis_size h m2 (i - n)).
    { intros i Hi. destruct (Nat.ltb_spec i n) as [Q|Q].
      - rewrite N1 by auto. split; [apply place_lt, block_unknown; auto|]. apply bsize_place, block_unknown; auto.
      - replace i with (n + (i - n)) at 1 2 by lia. rewrite N2 by lia. assert (i - n < n) by lia. split; [apply place_lt, block_unknown; auto|].
        apply bsize_place, block_unknown; auto. }
    destruct (add_ok (as_off a) (blocks h) bsize idx idx M asm_off) with (B := B) as (B' & E & G' & V); try (rewrite ?Li; auto; lia).
    - rewrite Li. intros i Hi. apply Rg. auto.
    - rewrite Li. intros i Hi. apply Rg. auto.
    - rewrite Li. intros i j X Hi Hj EX. rewrite (proj2 (Rg i Hi)), (proj2 (Rg j Hj)). apply (Fs i j X); auto.
    - exists B'. split; [exact E|]. split; [exact G'|]. intros r v c w p q Ur Uc. rewrite V, Li. f_equal.
      replace (2 * n) with (n + n) by lia. rewrite rsum_split. unfold port_part, sub_of_side, ptype. cbn [rsum fst snd Nat.eqb]. fold M.
      assert (Sp : forall i, rsum (n + n) (fun j => term idx idx M i j (place h r v) (place h c w) p q) =
         (rsum n (fun j => ind ((nth i idx 0%nat =? place h r v)%nat && (place h m1 j =? place h c w)%nat) (val (mb_get M i j) p q)) +
          rsum n (fun j => ind ((nth i idx 0%nat =? place h r v)%nat && (place h m2 j =? place h c w)%nat) (val (mb_get M i (n + j)%nat) p q)))%R).
      { intros i. rewrite rsum_split. f_equal; apply rsum_ext; intros j Hj; unfold term; rewrite ?(N1 j Hj), ?(N2 j Hj); reflexivity. }
      rewrite (rsum_ext n _ (fun i => (rsum n (fun j => ind ((place h m1 i =? place h r v)%nat && (place h m1 j =? place h c w)%nat) (val (mb_get M i j) p q)) +
          rsum n (fun j => ind ((place h m1 i =? place h r v)%nat && (place h m2 j =? place h c w)%nat) (val (mb_get M i (n + j)%nat) p q)))%R))
        by (intros i Hi; rewrite Sp, N1 by auto; reflexivity).
      rewrite (rsum_ext n (fun i => rsum (n + n) _) (fun i => (rsum n (fun j => ind ((place h m2 i =? place h r v)%nat && (place h m1 j =? place h c w)%nat) (val (mb_get M (n + i)%nat j) p q)) +
          rsum n (fun j => ind ((place h m2 i =? place h r v)%nat && (place h m2 j =? place h c w)%nat) (val (mb_get M (n + i)%nat (n + j)%nat) p q)))%R))
        by (intros i Hi; rewrite Sp, N2 by auto; reflexivity).
      rewrite !rsum_plus.
      pose proof (pick2 h m1 m1 r v c w (fun i j => val (mb_get M i j) p q)) as Q; fold n in Q; cbv beta in Q; rewrite Q by auto; clear Q.
      pose proof (pick2 h m1 m2 r v c w (fun i j => val (mb_get M i (n + j)) p q)) as Q; fold n in Q; cbv beta in Q; rewrite Q by auto; clear Q.
      pose proof (pick2 h m2 m1 r v c w (fun i j => val (mb_get M (n + i) j) p q)) as Q; fold n in Q; cbv beta in Q; rewrite Q by auto; clear Q.
      pose proof (pick2 h m2 m2 r v c w (fun i j => val (mb_get M (n + i) (n + j)) p q)) as Q; fold n in Q; cbv beta in Q; rewrite Q by auto; clear Q.
      cbn [Nat.mul Nat.add]. rewrite !Nat.add_0_r. ring.
  Qed.

  Lemma subs_ok k : k <= rh_nsub h -> exists B, ofor k (assemble_sub a) (fun _ _ => None) = Ok B /\ good B /\
    forall r v c w p q, unknown h r v -> unknown h c w ->
      val (B (place h r v) (place h c w)) p q = rsum k (fun m => ind ((m =? r) && (m =? c)) (sub_part m v w p q)).
  Proof.
    intros Hk. destruct (ofor_inv k (assemble_sub a) (fun k B => good B /\ forall r v c w p q, unknown h r v -> unknown h c w ->
      val (B (place h r v) (place h c w)) p q = rsum k (fun m => ind ((m =? r) && (m =? c)) (sub_part m v w p q))) (fun _ _ => None)) as (B & E & G & V).
    - split; [|reflexivity]. intros I J X _ _ Q. discriminate.
    - intros m B Hm (G & V). destruct (sub_ok m B ltac:(lia) G) as (B' & E & G' & V'). exists B'. split; [auto|]. split; [auto|].
      intros. rewrite V', V by auto. reflexivity.
    - exists B. auto.
  Qed.

  Lemma ports_ok l B : (forall P, In P l -> In P (as_ports a)) -> good B -> exists B', ofold (assemble_port a) l B = Ok B' /\ good B' /\
    forall r v c w p q, unknown h r v -> unknown h c w ->
      val (B' (place h r v) (place h c w)) p q = (val (B (place h r v) (place h c w)) p q + rsum (List.length l) (fun k => port_part (nth k l no_port) r v c w p q))%R.
  Proof.
    revert B. induction l as [|P l IH]; intros B Hl G.
    - exists B. split; [reflexivity|]. split; [auto|]. intros. cbn [rsum List.length]. ring.
    - destruct (port_ok P B (Hl P (or_introl eq_refl)) G) as (B1 & E1 & G1 & V1). cbn [ofold]. rewrite E1. cbn [obind].
      destruct (IH B1 (fun P HP => Hl P (or_intror HP)) G1) as (B2 & E2 & G2 & V2). exists B2. split; [exact E2|]. split; [exact G2|].
      intros. rewrite V2, V1 by auto. cbn [List.length]. rewrite rsum_S_l. cbn [nth]. ring.
  Qed.

  Lemma assemble_ok : exists B, assemble_rom_mat a = Ok B /\
    forall m v m' v', unknown h m v -> unknown h m' v' ->
      (forall X, B (place h m v) (place h m' v') = Some X -> fm_h X = basis_size h m v /\ fm_w X = basis_size h m' v') /\
      forall p q, val (B (place h m v) (place h m' v')) p q = rom_entry a ess m v m' v' p q.
  Proof.
    destruct (subs_ok (rh_nsub h) ltac:(lia)) as (B1 & E1 & G1 & V1). destruct (ports_ok (as_ports a) B1 (fun P HP => HP) G1) as (B2 & E2 & G2 & V2).
    exists B2. split; [unfold assemble_rom_mat; fold h; rewrite E1; exact E2|]. intros m v m' v' U U'. split.
    - intros X HX. rewrite <- !bsize_place by auto. apply (G2 _ _ X); auto; apply place_lt; auto.
    - intros p q. rewrite V2, V1 by auto. unfold rom_entry. fold h. change (if rh_sep h then rh_nvar h else 1) with n. f_equal.
      apply unknown_block in U as (Hm & _). rewrite (rsum_single _ m); auto.
      + rewrite Nat.eqb_refl. cbn [andb]. reflexivity.
      + intros i Hi N. destruct (Nat.eqb_spec i m); [congruence|]. reflexivity.
  Qed.
End Assemble.
