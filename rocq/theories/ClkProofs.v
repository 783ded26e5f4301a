(** Proofs about the data and the monitors of an unsteady run. *)
From Coq Require Import Reals List Bool Lia Arith ZArith Lra.
From Verif Require Import Outcome LaBase BlockVec MbModel MbSpec IntegModel UnsteadyModel UnsteadySpec TenProofs ClkModel ClkSpec.
Import ListNotations.
Local Open Scope list_scope.
Local Open Scope R_scope.

(** ** Clocks *)

Lemma set_clocks_map {D} t (cs : list (option (coef D))) : set_clocks t cs = Ok (map (set_clock t) cs).
Proof.
  unfold set_clocks.
  destruct (ofor_inv (List.length cs) (fun cs k => let* c := oread cs k in owrite cs k (set_clock t c))
              (fun k l => l = map (set_clock t) (firstn k cs) ++ skipn k cs) cs) as (l & E & ->); [reflexivity| |].
  - intros i l Hi ->. destruct (nth_error cs i) as [c|] eqn:Ec; [|apply nth_error_None in Ec; lia].
    destruct (nth_error_split cs i Ec) as (a & b & -> & La). subst i.
    exists (map (set_clock t) a ++ set_clock t c :: b). split.
    + replace (map (set_clock t) (firstn (List.length a) (a ++ c :: b)) ++ skipn (List.length a) (a ++ c :: b)) with (map (set_clock t) a ++ c :: b).
      2: { rewrite firstn_app, Nat.sub_diag, firstn_all, skipn_app, Nat.sub_diag, skipn_all. cbn [skipn app firstn]. rewrite app_nil_r. reflexivity. }
      assert (R1 : oread (map (set_clock t) a ++ c :: b) (List.length a) = Ok c).
      { apply oread_ok. rewrite nth_error_app2, map_length, Nat.sub_diag; [reflexivity|rewrite map_length; lia]. }
      rewrite R1. cbn [obind]. rewrite owrite_vec by (rewrite app_length, map_length; cbn; lia).
      rewrite <- (map_length (set_clock t) a) at 1. rewrite upd_split. reflexivity.
    + rewrite firstn_app, skipn_app. replace (S (List.length a) - List.length a)%nat with 1%nat by lia.
      rewrite firstn_all2 by lia. rewrite (skipn_all2 a) by lia. cbn [firstn skipn]. rewrite map_app, <- app_assoc. reflexivity.
  - rewrite E, firstn_all, skipn_all, app_nil_r. reflexivity.
Qed.
Lemma set_time_ok {D} t (c : coefs D) : set_time t c = Ok (Coefs (map (set_clock t) (co_f c)) (map (set_clock t) (co_ud c)) (map (set_clock t) (co_sn c))).
Proof. unfold set_time. rewrite !set_clocks_map. reflexivity. Qed.

Definition funs {D} (l : list (option (coef D))) : list (option (R -> D)) := map (option_map cf_fun) l.
Lemma funs_set {D} t (l : list (option (coef D))) : funs (map (set_clock t) l) = funs l.
Proof. unfold funs. rewrite map_map. apply map_ext. intros [c|]; reflexivity. Qed.
Lemma values_set {D} t (l : list (option (coef D))) : values (map (set_clock t) l) = at_time (funs l) t.
Proof. unfold values, at_time, funs. rewrite !map_map. apply map_ext. intros [c|]; reflexivity. Qed.
Lemma funs_new {D} (l : list (option (R -> D))) : funs (map (option_map new_coef) l) = l.
Proof. unfold funs. rewrite map_map. rewrite <- (map_id l) at 2. apply map_ext. intros [f|]; reflexivity. Qed.
Lemma values_new {D} (l : list (option (R -> D))) : values (map (option_map new_coef) l) = at_time l 0.
Proof. unfold values, at_time. rewrite map_map. apply map_ext. intros [f|]; reflexivity. Qed.

Section Run.
  Context {D : Type} (c : ucfg) (F : forms D) (p : data D).
  Definition holds (cs : coefs D) : Prop := funs (co_ud cs) = da_ud p.

  Lemma body_now (cs : coefs D) rhs s step : values (co_ud cs) = at_time (da_ud p) (us_time s) ->
    loop_body c (ops_now F cs) rhs s step = loop_body c (ops_at F p) rhs s step.
  Proof.
    intros E. unfold loop_body. f_equal. unfold time_step, ops_now, ops_at, convect. cbn [uo_hs uo_itf uo_mass uo_solve]. rewrite E. reflexivity.
  Qed.
  Lemma clk_body_eq cs rhs s step : holds cs -> exists cs', holds cs' /\
    clk_body c F rhs (cs, s) step = let* s := loop_body c (ops_at F p) rhs s step in Ok (cs', s).
  Proof.
    intros H. eexists (Coefs (map (set_clock (us_time s)) (co_f cs)) (map (set_clock (us_time s)) (co_ud cs)) (map (set_clock (us_time s)) (co_sn cs))). split.
    - unfold holds. cbn [co_ud]. rewrite funs_set. exact H.
    - unfold clk_body. rewrite set_time_ok. cbn [obind]. rewrite body_now; [reflexivity|]. cbn [co_ud]. rewrite values_set, H. reflexivity.
  Qed.
  Lemma clk_loop rhs first l : forall cs s, holds cs -> exists cs', holds cs' /\
    ofold (fun s k => clk_body c F rhs s (first + Z.of_nat k)) l (cs, s)
    = let* s := ofold (fun s k => loop_body c (ops_at F p) rhs s (first + Z.of_nat k)) l s in Ok (cs', s).
  Proof.
    induction l as [|k l IH]; intros cs s H; [exists cs; split; [exact H|reflexivity]|].
    cbn [ofold]. destruct (clk_body_eq cs rhs s (first + Z.of_nat k) H) as (cs1 & H1 & E). rewrite E.
    destruct (loop_body c (ops_at F p) rhs s (first + Z.of_nat k)) as [s1| |]; cbn [obind]; [|exists cs; auto|exists cs; auto].
    destruct (IH cs1 s1 H1) as (cs2 & H2 & E2). exists cs2. split; [exact H2|]. exact E2.
  Qed.
  Lemma clk_solve_eq cs rhs restart ic junk junk' s : holds cs -> exists cs', holds cs' /\
    clk_solve c F cs rhs restart ic junk junk' s = let* s := unsteady_solve c (ops_at F p) rhs restart ic junk junk' s in Ok (cs', s).
  Proof.
    intros H. unfold clk_solve, unsteady_solve. destruct (setup_initial c restart ic s) as [[s0 first]| |]; cbn [obind]; [|exists cs; auto|exists cs; auto].
    destruct (Rlt_dec 0 (uc_dt c)); [|exists cs; auto].
    destruct (offsets_byvar (uc_ns c) 2 (fo_u (uc_fo c)) (fo_p (uc_fo c))) as [off| |]; cbn [obind]; [|exists cs; auto|exists cs; auto].
    destruct (sort_by_variables (uc_ns c) 2 (us_U s0) (BVec off junk)) as [y| |]; cbn [obind]; [|exists cs; auto|exists cs; auto].
    destruct (visualize c 0 _) as [s1| |]; cbn [obind]; [|exists cs; auto|exists cs; auto].
    unfold ofor. destruct (clk_loop rhs first (seq 0 (Z.to_nat (uc_nt c - first))) cs s1 H) as (cs' & H' & E). exists cs'. split; [exact H'|]. rewrite E.
    destruct (ofold _ _ s1) as [s2| |]; cbn [obind]; try reflexivity.
  Qed.
  (** A run uses the right-hand side of time zero and the convection of the time of each step. *)
  Lemma clk_run_eq restart ic junk junk' s : clk_run c F p restart ic junk junk' s = unsteady_solve c (ops_at F p) (rhs_at F p 0) restart ic junk junk' s.
  Proof.
    unfold clk_run. destruct (clk_solve_eq (new_coefs p) (assemble_rhs F (new_coefs p)) restart ic junk junk' s) as (cs' & _ & E).
    { unfold holds, new_coefs. cbn [co_ud]. apply funs_new. }
    rewrite E. replace (assemble_rhs F (new_coefs p)) with (rhs_at F p 0).
    - clear E. destruct (unsteady_solve c (ops_at F p) (rhs_at F p 0) restart ic junk junk' s); reflexivity.
    - unfold assemble_rhs, rhs_at, new_coefs. cbn [co_f co_ud]. rewrite !values_new. reflexivity.
  Qed.
End Run.

(** ** Numbers *)

Lemma d_min_nan v : d_isnan (d_min v) = match v with NaN :: _ => true | _ => false end.
Proof.
  destruct v as [|x l]; [reflexivity|]. cbn [d_min]. assert (G : forall l x, d_isnan (fold_left (fun m y => if d_lt y m then y else m) l x) = d_isnan x).
  { clear. induction l as [|y l IH]; intros x; [reflexivity|]. cbn [fold_left]. rewrite IH. destruct x as [x|], y as [y|]; cbn [d_lt]; try reflexivity. destruct (Rlt_dec y x); reflexivity. }
  rewrite G. destruct x; reflexivity.
Qed.
Lemma d_max_nan v : d_isnan (d_max v) = match v with NaN :: _ => true | _ => false end.
Proof.
  destruct v as [|x l]; [reflexivity|]. cbn [d_max]. assert (G : forall l x, d_isnan (fold_left (fun m y => if d_lt m y then y else m) l x) = d_isnan x).
  { clear. induction l as [|y l IH]; intros x; [reflexivity|]. cbn [fold_left]. rewrite IH. destruct x as [x|], y as [y|]; cbn [d_lt]; try reflexivity. destruct (Rlt_dec x y); reflexivity. }
  rewrite G. destruct x; reflexivity.
Qed.
Lemma sanity_first v : sanity_check v = if match v with NaN :: _ => true | _ => false end then Abort else Ok tt.
Proof. unfold sanity_check. rewrite d_min_nan, d_max_nan. destruct v as [|[x|] l]; reflexivity. Qed.

Lemma nth_some {A} (l : list A) i : (i < List.length l)%nat -> exists x, nth_error l i = Some x.
Proof. intros H. destruct (nth_error l i) eqn:E; [eauto|]. apply nth_error_None in E. lia. Qed.

Lemma largest_ext (P Q : R -> Prop) M : (forall x, P x <-> Q x) -> largest P M -> largest Q M.
Proof. intros H (A & B & C). split; [exact A|]. split; [intros x Hx; apply B, H, Hx|]. destruct C as [C|C]; [left; exact C|right; apply H, C]. Qed.

Section Cfl.
  Variables (three : bool) (dt : R).
  Definition st_ok (P : R -> Prop) (st : dbl * dbl) : Prop := (three = false -> fst st = Num 0) /\ exists M, snd st = Num M /\ largest P M.

  Lemma cfl_point_ok h e st i (P : R -> Prop) : full_elem three e -> (i < List.length (ve_ux e))%nat -> st_ok P st ->
    exists st', cfl_point three dt h e st i = Ok st' /\ st_ok (fun x => P x \/ local_cfl three dt h e i x) st'.
  Proof.
    intros (Ly & Lz) Hi (Hz & M & EM & A & B & C). destruct (nth_some (ve_ux e) i Hi) as (ux & Ex). destruct (nth_some (ve_uy e) i ltac:(lia)) as (uy & Ey).
    unfold cfl_point. rewrite (proj2 (oread_ok _ _ _) Ex), (proj2 (oread_ok _ _ _) Ey). cbn [obind].
    assert (K : forall cz, (if three then exists uz, nth_error (ve_uz e) i = Some uz /\ cz = d1 (fun u => Rabs (dt * u / h)) uz else cz = Num 0) ->
      st_ok (fun x => P x \/ local_cfl three dt h e i x)
        (cz, d_fmax (snd st) (d2 Rplus (d2 Rplus (d1 (fun u => Rabs (dt * u / h)) ux) (d1 (fun u => Rabs (dt * u / h)) uy)) cz))).
    { intros cz Hcz. split; [intros T; cbn [fst]; rewrite T in Hcz; exact Hcz|]. cbn [snd]. rewrite EM.
      assert (N : (d2 Rplus (d2 Rplus (d1 (fun u => Rabs (dt * u / h)) ux) (d1 (fun u => Rabs (dt * u / h)) uy)) cz = NaN /\ forall x, ~ local_cfl three dt h e i x)
        \/ exists v, 0 <= v /\ d2 Rplus (d2 Rplus (d1 (fun u => Rabs (dt * u / h)) ux) (d1 (fun u => Rabs (dt * u / h)) uy)) cz = Num v /\ forall x, local_cfl three dt h e i x <-> x = v).
      { destruct ux as [ux|]; [|left; split; [reflexivity|intros x (a & b & Ea & _); congruence]].
        destruct uy as [uy|]; [|left; split; [reflexivity|intros x (a & b & _ & Eb & _); congruence]].
        destruct three eqn:T.
        - destruct Hcz as (uz & Ez & ->). destruct uz as [uz|]; [|left; split; [reflexivity|intros x (a & b & _ & _ & z & Ez' & _); congruence]].
          right. eexists. split; [|split; [reflexivity|]].
          + pose proof (Rabs_pos (dt * ux / h)). pose proof (Rabs_pos (dt * uy / h)). pose proof (Rabs_pos (dt * uz / h)). lra.
          + intros x. split.
            * intros (a & b & Ea & Eb & z & Ez' & ->). congruence.
            * intros ->. exists ux, uy. split; [exact Ex|]. split; [exact Ey|]. exists uz. auto.
        - subst cz. right. eexists. split; [|split; [reflexivity|]].
          + pose proof (Rabs_pos (dt * ux / h)). pose proof (Rabs_pos (dt * uy / h)). lra.
          + intros x. split.
            * intros (a & b & Ea & Eb & ->). rewrite Ex in Ea. rewrite Ey in Eb. injection Ea as <-. injection Eb as <-. ring.
            * intros ->. exists ux, uy. split; [exact Ex|]. split; [exact Ey|]. ring. }
      destruct N as [(-> & N)|(v & V0 & -> & N)].
      - exists M. split; [reflexivity|]. split; [exact A|]. split; [intros x [Hx|Hx]; [auto|destruct (N x Hx)]|]. destruct C as [C|C]; [left; exact C|right; left; exact C].
      - exists (Rmax M v). split; [reflexivity|]. split; [apply Rle_trans with M; [exact A|apply Rmax_l]|]. split.
        + intros x [Hx|Hx]; [apply Rle_trans with M; [auto|apply Rmax_l]|]. apply N in Hx. subst x. apply Rmax_r.
        + destruct (Rle_dec M v) as [L|L].
          * rewrite Rmax_right by exact L. right. right. apply N. reflexivity.
          * rewrite Rmax_left by lra. destruct C as [C|C]; [left; exact C|right; left; exact C]. }
    destruct three eqn:T.
    - destruct (nth_some (ve_uz e) i ltac:(rewrite Lz by reflexivity; exact Hi)) as (uz & Ez). rewrite (proj2 (oread_ok _ _ _) Ez). cbn [obind].
      eexists. split; [reflexivity|]. apply K. exists uz. auto.
    - cbn [obind]. eexists. split; [reflexivity|]. apply K. apply Hz. reflexivity.
  Qed.

  Lemma cfl_elem_ok h e st (P : R -> Prop) : full_elem three e -> st_ok P st ->
    exists st', ofor (List.length (ve_ux e)) (cfl_point three dt h e) st = Ok st' /\ st_ok (fun x => P x \/ exists i, local_cfl three dt h e i x) st'.
  Proof.
    intros Hf Hs. destruct (ofor_inv (List.length (ve_ux e)) (cfl_point three dt h e) (fun k st => st_ok (fun x => P x \/ exists i, (i < k)%nat /\ local_cfl three dt h e i x) st) st) as (st' & E & H).
    - destruct Hs as (Hz & M & EM & HM). split; [exact Hz|]. exists M. split; [exact EM|]. eapply largest_ext; [|exact HM]. intros x. split; [auto|]. intros [Hx|(i & Hi & _)]; [exact Hx|lia].
    - intros i s Hi Hsi. destruct (cfl_point_ok h e s i _ Hf Hi Hsi) as (s' & Es & Hs'). exists s'. split; [exact Es|].
      destruct Hs' as (Hz & M & EM & HM). split; [exact Hz|]. exists M. split; [exact EM|]. eapply largest_ext; [|exact HM]. intros x. split.
      + intros [[Hx|(j & Hj & Hx)]|Hx]; [left; exact Hx|right; exists j; split; [lia|exact Hx]|right; exists i; split; [lia|exact Hx]].
      + intros [Hx|(j & Hj & Hx)]; [auto|]. destruct (Nat.eq_dec j i) as [->|Ne]; [auto|]. left. right. exists j. split; [lia|exact Hx].
    - exists st'. split; [exact E|]. destruct H as (Hz & M & EM & HM). split; [exact Hz|]. exists M. split; [exact EM|]. eapply largest_ext; [|exact HM]. intros x. split.
      + intros [Hx|(i & Hi & Hx)]; eauto.
      + intros [Hx|(i & Hx)]; [auto|]. right. exists i. split; [|exact Hx]. destruct Hx as (ux & uy & Ex & _). apply nth_error_Some. congruence.
  Qed.
  Lemma cfl_sub_ok order es : forall st (P : R -> Prop), (forall e, In e es -> full_elem three e) -> st_ok P st ->
    exists st', ofold (fun st e => ofor (List.length (ve_ux e)) (cfl_point three dt (ve_size e / order) e) st) es st = Ok st' /\
      st_ok (fun x => P x \/ exists e i, In e es /\ local_cfl three dt (ve_size e / order) e i x) st'.
  Proof.
    induction es as [|e es IH]; intros st P Hf Hs.
    - exists st. split; [reflexivity|]. destruct Hs as (Hz & M & EM & HM). split; [exact Hz|]. exists M. split; [exact EM|]. eapply largest_ext; [|exact HM]. intros x. split; [auto|]. intros [Hx|(e & i & [] & _)]. exact Hx.
    - cbn [ofold]. destruct (cfl_elem_ok (ve_size e / order) e st P (Hf e (or_introl eq_refl)) Hs) as (st1 & E1 & H1). rewrite E1. cbn [obind].
      destruct (IH st1 _ (fun e' H => Hf e' (or_intror H)) H1) as (st2 & E2 & Hz & M & EM & HM). exists st2. split; [exact E2|]. split; [exact Hz|]. exists M. split; [exact EM|]. eapply largest_ext; [|exact HM]. intros x. split.
      + intros [[Hx|(i & Hx)]|(e' & i & He & Hx)]; [auto|right; exists e, i; split; [left; reflexivity|exact Hx]|right; exists e', i; split; [right; exact He|exact Hx]].
      + intros [Hx|(e' & i & [<-|He] & Hx)]; [auto|left; right; eauto|right; eauto].
  Qed.
  Lemma compute_cfl_ok subs : full_subs three subs -> exists M, compute_cfl three dt subs = Ok (Num M) /\ largest (some_cfl three dt subs) M.
  Proof.
    intros Hf. unfold compute_cfl.
    assert (G : forall subs st (P : R -> Prop), full_subs three subs -> st_ok P st -> exists st',
      ofold (fun st sub => let (order, es) := (sub : R * list velem) in ofold (fun st e => ofor (List.length (ve_ux e)) (cfl_point three dt (ve_size e / order) e) st) es st) subs st = Ok st' /\
      st_ok (fun x => P x \/ some_cfl three dt subs x) st').
    { clear. induction subs as [|[order es] subs IH]; intros st P Hf Hs.
      - exists st. split; [reflexivity|]. destruct Hs as (Hz & M & EM & HM). split; [exact Hz|]. exists M. split; [exact EM|]. eapply largest_ext; [|exact HM]. intros x. split; [auto|]. intros [Hx|(o & es & e & i & [] & _)]. exact Hx.
      - cbn [ofold]. destruct (cfl_sub_ok order es st P (fun e He => Hf order es e (or_introl eq_refl) He) Hs) as (st1 & E1 & H1). rewrite E1. cbn [obind].
        destruct (IH st1 _ (fun o' es' e' H1' H2' => Hf o' es' e' (or_intror H1') H2') H1) as (st2 & E2 & Hz & M & EM & HM). exists st2. split; [exact E2|]. split; [exact Hz|]. exists M. split; [exact EM|]. eapply largest_ext; [|exact HM]. intros x. split.
        + intros [[Hx|(e & i & He & Hx)]|(o & es' & e & i & Hi & He & Hx)]; [auto|right; exists order, es, e, i; split; [left; reflexivity|auto]|right; exists o, es', e, i; split; [right; exact Hi|auto]].
        + intros [Hx|(o & es' & e & i & [Hi|Hi] & He & Hx)]; [auto|injection Hi as <- <-; left; right; exists e, i; auto|right; exists o, es', e, i; auto]. }
    destruct (G subs (Num 0, Num 0) (fun _ => False) Hf) as (st & E & _ & M & EM & HM).
    - split; [reflexivity|]. exists 0. split; [reflexivity|]. split; [lra|]. split; [intros x []|left; reflexivity].
    - rewrite E. cbn [obind]. exists M. rewrite EM. split; [reflexivity|]. eapply largest_ext; [|exact HM]. intros x. split; [intros [[]|Hx]; exact Hx|auto].
  Qed.
End Cfl.

(** ** Initial condition *)

Section Ic.
  Context {D : Type} (zero : D).
  (** Live coefficients are exactly the two held. *)
  Definition ic_inv (s : icst D) : Prop :=
    match ic_u s, ic_p s with
    | None, None => ic_live s = []
    | Some (a, _), Some (b, _) => a <> b /\ ic_live s = [b; a]
    | _, _ => False
    end.
  Lemma ic_free s : ic_inv s -> ic_destroy s = Ok [].
  Proof.
    unfold ic_inv, ic_destroy, ic_delete. destruct (ic_u s) as [[a u]|], (ic_p s) as [[b p]|]; try tauto; [|intros ->; reflexivity].
    intros (N & ->). cbn [existsb filter]. rewrite Nat.eqb_refl, !orb_true_r. cbn [oguard orb obind negb].
    destruct (b =? a)%nat eqn:E; [apply Nat.eqb_eq in E; congruence|]. cbn [negb]. cbn [filter existsb obind oguard]. rewrite !Nat.eqb_refl. reflexivity.
  Qed.
  Lemma set_problem_ok ptr s : ic_inv s -> exists s', set_problem zero ptr s = Ok s' /\ ic_inv s' /\
    List.length (ic_vels s') = List.length (ic_vels s) /\ List.length (ic_ps s') = List.length (ic_ps s) /\
    exists a b u p, ic_u s' = Some (a, u) /\ ic_p s' = Some (b, p) /\
      u = (if (List.length ptr <? 2)%nat then IZero else match nth_error ptr 0 with Some (Some f) => IFun f | _ => IZero end) /\
      p = (if (List.length ptr <? 2)%nat then IZero else match nth_error ptr 1 with Some (Some f) => IFun f | _ => IZero end).
  Proof.
    intros H. pose proof (ic_free s H) as F. unfold ic_destroy in F. unfold set_problem.
    destruct (ic_delete (ic_live s) (ic_u s)) as [live| |] eqn:E1; try discriminate. cbn [obind] in *. rewrite F. cbn [obind].
    destruct (List.length ptr <? 2)%nat eqn:L.
    - eexists. split; [reflexivity|]. split; [split; [lia|reflexivity]|]. cbn [ic_vels ic_ps ic_u ic_p]. rewrite !map_length. split; [reflexivity|]. split; [reflexivity|]. do 4 eexists. repeat split.
    - apply Nat.ltb_ge in L. destruct (nth_some ptr 0 ltac:(lia)) as (f & Ef). destruct (nth_some ptr 1 ltac:(lia)) as (g & Eg).
      rewrite (proj2 (oread_ok _ _ _) Ef), (proj2 (oread_ok _ _ _) Eg). cbn [obind]. eexists. split; [reflexivity|]. split; [split; [lia|reflexivity]|].
      cbn [ic_vels ic_ps ic_u ic_p]. rewrite !map_length. split; [reflexivity|]. split; [reflexivity|]. do 4 eexists. split; [reflexivity|]. split; [reflexivity|]. rewrite Ef, Eg. destruct f, g; split; reflexivity.
  Qed.
  Lemma project_ok s : ic_inv s -> exists s', project_ic zero s = Ok s' /\ ic_inv s' /\ ic_u s' = ic_u s /\ ic_p s' = ic_p s /\
    List.length (ic_vels s') = List.length (ic_vels s) /\ List.length (ic_ps s') = List.length (ic_ps s) /\
    forall a b u p, ic_u s = Some (a, u) -> ic_p s = Some (b, p) ->
      (forall x, In x (ic_vels s') -> x = Some match u with IZero => zero | IFun f => f 0 end) /\ (forall x, In x (ic_ps s') -> x = Some match p with IZero => zero | IFun f => f 0 end).
  Proof.
    intros H. pose proof H as H'. unfold ic_inv in H. unfold project_ic. destruct (ic_u s) as [[a u]|] eqn:Eu, (ic_p s) as [[b p]|] eqn:Ep; try tauto.
    - destruct H as (N & L). rewrite L. cbn [existsb]. rewrite !Nat.eqb_refl, !orb_true_r. cbn [oguard andb orb]. eexists. split; [reflexivity|].
      cbn [ic_vels ic_ps ic_u ic_p]. split; [unfold ic_inv; cbn [ic_u ic_p ic_live]; auto|]. split; [reflexivity|]. split; [reflexivity|]. rewrite !map_length. split; [reflexivity|]. split; [reflexivity|].
      intros a' b' u' p' E1 E2. injection E1 as <- <-. injection E2 as <- <-. split; intros x Hx; apply in_map_iff in Hx; destruct Hx as (_ & <- & _); reflexivity.
    - exists s. split; [reflexivity|]. rewrite Eu, Ep. split; [exact H'|]. do 4 (split; [reflexivity|]). intros a b u p E; discriminate.
  Qed.
  Lemma ic_calls cs : forall s, ic_inv s -> exists s', ofold (ic_step zero) cs s = Ok s' /\ ic_inv s' /\ List.length (ic_vels s') = List.length (ic_vels s) /\ List.length (ic_ps s') = List.length (ic_ps s).
  Proof.
    induction cs as [|c cs IH]; intros s H; [exists s; auto|]. cbn [ofold].
    assert (G : exists s1, ic_step zero s c = Ok s1 /\ ic_inv s1 /\ List.length (ic_vels s1) = List.length (ic_vels s) /\ List.length (ic_ps s1) = List.length (ic_ps s)).
    { destruct c as [ptr|]; cbn [ic_step].
      - destruct (set_problem_ok ptr s H) as (s1 & E & I1 & L1 & L2 & _). eauto.
      - destruct (project_ok s H) as (s1 & E & I1 & _ & _ & L1 & L2 & _). eauto. }
    destruct G as (s1 & E & I1 & L1 & L2). rewrite E. cbn [obind]. destruct (IH s1 I1) as (s2 & E2 & I2 & L3 & L4). exists s2. split; [exact E2|]. split; [exact I2|]. split; congruence.
  Qed.
  Lemma ic_starts cs : forall s, ic_inv s -> (forall c, In c cs -> c = CStart) -> exists s', ofold (ic_step zero) cs s = Ok s' /\ ic_inv s' /\ ic_u s' = ic_u s /\ ic_p s' = ic_p s.
  Proof.
    induction cs as [|c cs IH]; intros s H Hc; [exists s; auto|]. cbn [ofold]. rewrite (Hc c (or_introl eq_refl)). cbn [ic_step].
    destruct (project_ok s H) as (s1 & E & I1 & U1 & P1 & _). rewrite E. cbn [obind]. destruct (IH s1 I1 (fun c H => Hc c (or_intror H))) as (s2 & E2 & I2 & U2 & P2). exists s2. split; [exact E2|]. split; [exact I2|]. split; congruence.
  Qed.
End Ic.
