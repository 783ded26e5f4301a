(** Proofs: nonlinear conjugate gradients. *)
From Coq Require Import Reals List Bool ZArith Lia Lra Arith.
From Verif Require Import Outcome ListLemmas LaBase LinalgModel LinalgSpec LinalgProofs LinalgGsProofs LinalgBrentProofs CgoModel CgoSpec.
Import ListNotations.
Local Open Scope R_scope.

Lemma vec_ext (u v : vec) : length u = length v -> (forall i, vnth u i = vnth v i) -> u = v.
Proof.
  revert v. induction u as [|x u IH]; intros [|y v] L H; try discriminate; [reflexivity|]. f_equal; [exact (H 0%nat)|]. apply IH; [cbn in L; lia|]. intros i. exact (H (S i)).
Qed.
Lemma vnth_out (v : vec) i : (length v <= i)%nat -> vnth v i = 0.
Proof. intros H. unfold vnth. apply nth_overflow. exact H. Qed.
Lemma vadd_zero (u d : vec) t : length d = length u -> (forall i, (i < length u)%nat -> vnth d i = 0) -> vadd u t d = u.
Proof.
  intros L H. apply vec_ext; [apply vadd_length; exact L|]. intros i. rewrite vadd_nth by exact L. destruct (Nat.lt_ge_cases i (length u)) as [Hi|Hi].
  - rewrite H by exact Hi. ring.
  - rewrite !vnth_out by lia. ring.
Qed.
Lemma vadd_at_zero (u d : vec) : length d = length u -> vadd u 0 d = u.
Proof. intros L. apply vec_ext; [apply vadd_length; exact L|]. intros i. rewrite vadd_nth by exact L. ring. Qed.

Lemma clamp_is fr x : 0 <= fr -> (if rltb x (- fr) then - fr else if rltb fr x then fr else x) = clamp fr x.
Proof.
  intros F. unfold clamp. destruct (rltb x (- fr)) eqn:E1.
  - apply rltb_true in E1. rewrite Rmin_right by lra. rewrite Rmax_left by lra. reflexivity.
  - apply rltb_false in E1. destruct (rltb fr x) eqn:E2.
    + apply rltb_true in E2. rewrite Rmin_left by lra. rewrite Rmax_right by lra. reflexivity.
    + apply rltb_false in E2. rewrite Rmin_right by lra. rewrite Rmax_right by lra. reflexivity.
Qed.

Section Run.
  Variables (c : cgcfg) (o : cgop) (n : nat) (rhs : vec).
  Hypothesis Hnb : (1 <= cg_nb c)%nat.
  Hypothesis Hg : forall u r, length u = n -> length (op_gradt o u r) = n.
  Local Notation J := (objective o rhs).
  Local Notation G := (gradient o rhs).

  Lemma G_len u : length u = n -> length (G u) = n.
  Proof. intros H. unfold gradient. apply Hg, H. Qed.

  (** The path from iteration [j] on, along [d]. *)
  Record rel_path (j : nat) (d u0 : vec) (N : nat) (Us Ds : nat -> vec) : Prop := {
    rp_start : Us O = u0;
    rp_len : forall k, (k <= N)%nat -> length (Us k) = n;
    rp_down : forall k, (k < N)%nat -> J (Us (S k)) <= J (Us k);
    rp_step : forall k, (k < N)%nat -> exists b, forall i, vnth (Us (S k)) i = vnth (Us k) i + b * vnth (Ds k) i;
    rp_moving : forall k, (k < N)%nat -> exists i, (i < n)%nat /\ vnth (G (Us k)) i <> 0;
    rp_first : (0 < N)%nat -> Ds O = d;
    rp_next : forall k, (S k < N)%nat ->
      let gg := dot n (G (Us k)) (G (Us k)) in
      let pr := rsum n (fun i => (vnth (G (Us (S k))) i - vnth (G (Us k)) i) * vnth (G (Us (S k))) i) / gg in
      let fr := dot n (G (Us (S k))) (G (Us (S k))) / gg in
      forall i, vnth (Ds (S k)) i = - vnth (G (Us (S k))) i + (if (j + k =? 0)%nat then pr else clamp fr pr) * vnth (Ds k) i }.

  Definition flat (u : vec) : Prop := forall i, (i < n)%nat -> vnth u i = 0.

  Lemma search_ok d sol b0 b sol' : length sol = n -> length d = n -> line_search c o rhs (Some d) sol b0 = Some (Ok (b, sol')) ->
    sol' = vadd sol b d /\ length sol' = n /\ J sol' <= J sol /\ ~ flat d.
  Proof.
    intros Ls Ld E. destruct b0 as [b0|]; [|discriminate]. unfold line_search in E.
    destruct (brent (cg_fuel c) (cg_nb c) (cg_np c) (cg_golden c) (fun t => J (vadd sol t d)) (cg_stop c) (cg_propose c) b0) as [r|] eqn:B; [|discriminate].
    destruct r as [b'| |]; try discriminate. cbn in E. injection E as <- <-. split; [reflexivity|]. split; [rewrite vadd_length; lia|]. split.
    - pose proof (brent_descends _ _ _ _ _ _ _ _ _ Hnb B) as D. cbn beta in D. rewrite (vadd_at_zero sol d) in D by lia. exact D.
    - intros F. destruct (brent_shrink (cg_fuel c) (cg_golden c) (fun t => J (vadd sol t d)) b0) as [s|] eqn:Es.
      + pose proof (proj1 (brent_safe_iff _ (cg_nb c) (cg_np c) _ _ (cg_stop c) (cg_propose c) _ s Hnb Es)) as K. rewrite B in K. destruct K as (j & _ & K); [discriminate|].
        cbn beta in K. rewrite !(vadd_zero sol d) in K by (try lia; intros i Hi; apply F; lia). lra.
      + unfold brent in B. rewrite Es in B. discriminate.
  Qed.
  Lemma search_flat d sol b0 : length sol = n -> length d = n -> flat d -> line_search c o rhs (Some d) sol b0 = Some UB.
  Proof.
    intros Ls Ld F. destruct b0 as [b0|]; [|reflexivity]. unfold line_search.
    assert (Es : forall f, brent_shrink f (cg_golden c) (fun t => J (vadd sol t d)) b0 = Some b0).
    { intros f. destruct f; cbn [brent_shrink]; rewrite !(vadd_zero sol d) by (try lia; intros i Hi; apply F; lia); rewrite (proj2 (rltb_false _ _)) by lra; reflexivity. }
    destruct (brent_cases _ (cg_nb c) (cg_np c) _ _ (cg_stop c) (cg_propose c) _ b0 Hnb (Es (cg_fuel c))) as [((j & _ & L) & _)|(_ & E)].
    - cbn beta in L. rewrite !(vadd_zero sol d) in L by (try lia; intros i Hi; apply F; lia). lra.
    - cbv zeta in E. rewrite E. reflexivity.
  Qed.

  Definition acc (atol rtol res0 : R) (u : vec) : Prop := accepted atol rtol res0 (sqrt (J u)).
  Lemma acc_dec atol rtol res0 u : rltb (sqrt (J u)) atol || (negb (req res0 0) && rltb (sqrt (J u) / res0) rtol) = true <-> acc atol rtol res0 u.
  Proof.
    unfold acc, accepted. rewrite orb_true_iff, andb_true_iff, !rltb_true, negb_true_iff. unfold req. destruct (Req_EM_T res0 0) as [E|E]; split; intros [H|(H & H')]; auto; try congruence; try tauto.
  Qed.

  Lemma cg_loop_ok atol rtol res0 : forall todo j sol d b0 conv r fl, length sol = n -> length d = n -> (flat (G sol) -> flat d) ->
    cg_loop todo j c o n atol rtol res0 rhs sol (vscale (-1) (G sol)) (Some d) (Some d) b0 conv = Some (Ok (r, fl)) ->
    exists N Us Ds, rel_path j d sol N Us Ds /\ Us N = r /\ (N <= todo)%nat /\
      ((fl = true /\ (0 < N)%nat /\ acc atol rtol res0 r /\ forall k, (0 < k < N)%nat -> ~ acc atol rtol res0 (Us k)) \/
       (fl = conv /\ N = todo /\ forall k, (0 < k <= N)%nat -> ~ acc atol rtol res0 (Us k))).
  Proof.
    induction todo as [|todo IH]; intros j sol d b0 conv r fl Ls Ld Hd E.
    - cbn in E. injection E as <- <-. exists 0%nat, (fun _ => sol), (fun _ => d). split; [|split; [reflexivity|]; split; [lia|]; right; split; [reflexivity|]; split; [reflexivity|]; intros k Hk; lia].
      split; try (intros; lia); auto.
    - cbn [cg_loop] in E. destruct (line_search c o rhs (Some d) sol b0) as [[[b sol']| |]|] eqn:SE; try discriminate.
      destruct (search_ok d sol b0 b sol' Ls Ld SE) as (-> & Ls' & Dn & Nf). set (u := vadd sol b d) in *.
      pose proof (G_len sol Ls) as Lg. pose proof (G_len u Ls') as Lg'.
      assert (Mv : exists i, (i < n)%nat /\ vnth (G sol) i <> 0).
      { destruct (Req_EM_T (dot n (G sol) (G sol)) 0) as [Z|Z].
        - destruct Nf. apply Hd. intros i Hi. apply (dot_zero n); auto.
        - assert (K : forall k, (k <= n)%nat -> (exists i, (i < k)%nat /\ vnth (G sol) i <> 0) \/ rsum k (fun i => vnth (G sol) i * vnth (G sol) i) = 0).
          { induction k as [|k IHk]; intros Hk; [right; reflexivity|]. destruct (IHk ltac:(lia)) as [(i & Hi & Q)|Q]; [left; exists i; split; [lia|exact Q]|].
            destruct (Req_EM_T (vnth (G sol) k) 0) as [V|V]; [right|left; exists k; split; [lia|exact V]]. cbn [rsum]. rewrite Q, V. ring. }
          destruct (K n (le_n n)) as [Q|Q]; [exact Q|]. destruct Z. exact Q. }
      destruct (rltb (sqrt (J u)) atol || (negb (req res0 0) && rltb (sqrt (J u) / res0) rtol)) eqn:Ac.
      + injection E as <- <-. apply acc_dec in Ac. exists 1%nat, (fun k => match k with O => sol | S _ => u end), (fun _ => d). split.
        * split; try (intros; lia); auto.
          -- intros [|k] Hk; [exact Ls|exact Ls'].
          -- intros [|k] Hk; [exact Dn|lia].
          -- intros [|k] Hk; [|lia]. exists b. intros i. unfold u. apply vadd_nth. lia.
          -- intros [|k] Hk; [exact Mv|lia].
        * split; [reflexivity|]. split; [lia|]. left. split; [reflexivity|]. split; [lia|]. split; [exact Ac|]. intros k Hk; lia.
      + assert (NA : ~ acc atol rtol res0 u) by (intros Q; apply acc_dec in Q; congruence). clear Ac.
        set (gg := dot n (vscale (-1) (G sol)) (vscale (-1) (G sol))) in *.
        assert (Gg : gg = dot n (G sol) (G sol)). { unfold gg. unfold dot. apply rsum_ext. intros i _. rewrite vscale_nth. ring. }
        assert (Gp : 0 < gg).
        { destruct (dot_nonneg n (G sol)) as [P|P]; [lra|]. destruct Mv as (i & Hi & Q). destruct Q. apply (dot_zero n); [auto|exact Hi]. }
        set (dgg := dot n (vadd (G u) 1 (vscale (-1) (G sol))) (G u)) in *.
        assert (Dg : dgg = rsum n (fun i => (vnth (G u) i - vnth (G sol) i) * vnth (G u) i)).
        { unfold dgg, dot. apply rsum_ext. intros i _. rewrite vadd_nth, vscale_nth by (rewrite vscale_length; lia). ring. }
        unfold new_gamma in E. assert (Rq : req gg 0 = false) by (unfold req; destruct (Req_EM_T gg 0); [lra|reflexivity]). rewrite !Rq in E. cbv zeta in E.
        set (gamma := (if (0 <? j)%nat then _ else dgg / gg)) in E.
        assert (Eg : gamma = if (j =? 0)%nat then dgg / gg else clamp (dot n (G u) (G u) / gg) (dgg / gg)).
        { unfold gamma. destruct j; [reflexivity|]. cbn [Nat.ltb Nat.leb Nat.eqb]. apply clamp_is. apply Rmult_le_pos; [apply dot_nonneg|]. left. apply Rinv_0_lt_compat. exact Gp. }
        clearbody gamma.
        destruct (IH (S j) u (vadd (vscale (-1) (G u)) gamma d) (Some b) conv r fl) as (N & Us & Ds & P & Er & Hn & Fl); auto.
        * rewrite vadd_length; rewrite vscale_length; lia.
        * intros F i Hi. rewrite vadd_nth, vscale_nth by (rewrite vscale_length; lia). rewrite (F i Hi).
          assert (Z1 : dgg = 0) by (rewrite Dg; rewrite <- (rsum_zero n); apply rsum_ext; intros k Hk; rewrite (F k Hk); ring).
          assert (Z2 : dot n (G u) (G u) = 0) by (unfold dot; rewrite <- (rsum_zero n); apply rsum_ext; intros k Hk; rewrite (F k Hk); ring).
          assert (Z3 : gamma = 0). { rewrite Eg, Z1, Z2. unfold Rdiv. rewrite Rmult_0_l. unfold clamp. rewrite Ropp_0, Rmin_left, Rmax_left by lra. destruct (j =? 0)%nat; reflexivity. }
          rewrite Z3. ring.
        * destruct P as [P0 P1 P2 P3 P4 P5 P6].
          exists (S N), (fun k => match k with O => sol | S k => Us k end), (fun k => match k with O => d | S k => Ds k end). split.
          -- split; [reflexivity| | | | | |].
             ++ intros [|k] Hk; [exact Ls|apply P1; lia].
             ++ intros [|k] Hk; [rewrite P0; exact Dn|apply P2; lia].
             ++ intros [|k] Hk; [|apply P3; lia]. exists b. intros i. rewrite P0. unfold u. apply vadd_nth. lia.
             ++ intros [|k] Hk; [exact Mv|apply P4; lia].
             ++ intros _. reflexivity.
             ++ intros [|k] Hk; cbv zeta; intros i.
                ** rewrite P5 by lia. rewrite P0. rewrite vadd_nth, vscale_nth by (rewrite vscale_length; lia). rewrite Nat.add_0_r, <- Dg, <- Gg, <- Eg. ring.
                ** specialize (P6 k ltac:(lia) i). rewrite Nat.add_succ_r. exact P6.
          -- split; [exact Er|]. split; [lia|]. destruct Fl as [(F1 & F2 & F3 & F4)|(F1 & F2 & F3)].
             ++ left. split; [exact F1|]. split; [lia|]. split; [exact F3|]. intros [|[|k]] Hk; [lia|rewrite P0; exact NA|apply F4; lia].
             ++ right. split; [exact F1|]. split; [lia|]. intros [|[|k]] Hk; [lia|rewrite P0; exact NA|apply F3; lia].
  Qed.
End Run.
