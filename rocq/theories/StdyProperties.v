(** C133: the steady flow solve; C134: its reduced solve. *)
From Coq Require Import Reals List Bool Lia Arith ZArith Lra String.
From Verif Require Import Outcome ListLemmas LaBase BlockVec LinalgModel LinalgSpec LinalgProofs LinalgGsProofs LinalgBrentProofs RomModel RomSpec RomProofs RomBasisProofs RomStateProofs RomExamples
  MbModel MbSpec MbVecProofs MbFlowProofs MbExamples NsTensorModel NsTensorSpec NsTensorProofs NsFomProofs CgoModel RomProperties MbProperties StdyModel StdySpec StdyProofs StdyRomProofs StdyExamples.
Import ListNotations.
Local Open Scope list_scope.
Local Open Scope R_scope.

(** A setting in which the solve can start: vectors and operator of [ns] subdomains with velocity and pressure of sizes [vs], a linear
    solver that answers, a readable restart file if one is named, and pressures that are fixed up to a constant unless the boundary fixes them. *)
Definition steady_setting (ns : nat) (vs : nat -> nat -> nat) (fo : flow_off) (op : nsop) (hs : nat -> vec -> vec) (itf : option (vec -> vec)) (pres_dbc : bool) (c : scfg)
    (next : list vec -> vec -> outcome vec) (fs : files) (rhs u : bvec) (junk junk2 : vec) : Prop :=
  let nu := nsum ns (fun m => vs m 0%nat) in let np := nsum ns (fun m => vs m 1%nat) in
  (exists udim ndofs vdim, udim = (vdim 0 + vdim 1)%nat /\ flow_offsets ns 2 udim vs ndofs vdim = Ok fo) /\
  sub_shaped ns 2 vs rhs /\ sub_shaped ns 2 vs u /\ List.length junk = (nu + np)%nat /\ List.length junk2 = (nu + np)%nat /\
  fom_ok op ns (fun m => vs m 0%nat) /\ no_n op = (nu + np)%nat /\ no_C op = None /\
  (forall m v, (m < ns)%nat -> List.length v = vs m 0%nat -> List.length (hs m v) = vs m 0%nat) /\
  (forall f v, itf = Some f -> List.length v = nu -> List.length (f v) = nu) /\
  (pres_dbc = false -> no_force op nu (nu + np) /\ (0 < np)%nat) /\
  (forall xs r, List.length r = (nu + np)%nat -> exists d, next xs r = Ok d /\ List.length d = (nu + np)%nat) /\
  (forall name, sc_restart c = Some name -> exists d, load_solution fs name (bv_dat u) = Ok d /\ List.length d = List.length (bv_dat u)).

Example setting_example rtol atol maxit restart : restart = None \/ restart = Some "sol.h5"%string ->
  steady_setting 2 xm_size xm_fo xst_op xst_hs None false (SCfg rtol atol maxit restart) xst_next xst_fs xm_sub xm_sub (repeat 0 9) (repeat 0 9).
Proof.
  intros Hr. unfold steady_setting. change (nsum 2 (fun m => xm_size m 0)) with 6%nat. change (nsum 2 (fun m => xm_size m 1)) with 3%nat. cbv zeta. change (6 + 3)%nat with 9%nat.
  split; [exists 3%nat, (fun m v => m + 1)%nat, (fun v => if (v =? 0)%nat then 2 else 1)%nat; split; [reflexivity|apply xm_flow]|].
  split; [apply xm_sub_shaped|]. split; [apply xm_sub_shaped|]. split; [reflexivity|]. split; [reflexivity|]. split; [apply xst_ok|]. split; [reflexivity|]. split; [reflexivity|].
  split; [apply xst_len|]. split; [discriminate|]. split; [intros _; split; [apply xst_force|lia]|]. split; [apply xst_next_ok|].
  intros name E. cbn [sc_restart] in E. destruct Hr as [->| ->]; [discriminate|]. injection E as <-. exists xst_d. split; [apply xst_load|reflexivity].
Qed.

(** The solve starts from the restart file, or from small random numbers; it iterates until the residual is below the tolerances, or all
    iterations are used; it says which. What it returns is the last iterate, with the mean of the pressures removed unless the boundary fixes
    them, and this leaves the residual as it is. A snapshot is saved only if the iteration has converged. *)
Theorem C133_solution : forall ns vs fo op hs itf pres_dbc c next fs rnd gen rhs u junk junk2,
  steady_setting ns vs fo op hs itf pres_dbc c next fs rhs u junk junk2 ->
  let nu := nsum ns (fun m => vs m 0%nat) in let np := nsum ns (fun m => vs m 1%nat) in let n := (nu + np)%nat in
  let F := fom_mult op hs itf in
  exists u' cv b x0 y0 x N Xs y,
    steady_solve ns fo pres_dbc c F next fs rnd gen rhs u junk junk2 = Ok (u', cv, cv && gen) /\ sub_shaped ns 2 vs u' /\ ordered ns vs rhs b /\ ordered ns vs u' x /\
    match sc_restart c with
    | None => List.length x0 = n /\ forall k, (k < n)%nat -> vnth x0 k = rnd k / 100000
    | Some name => exists d, load_solution fs name (bv_dat u) = Ok d /\ ordered ns vs (BVec (bv_off u) d) x0
    end /\
    F x0 = Ok y0 /\ iterates n F next b x0 (Rmax (sc_rtol c * distance n y0 b) (sc_atol c)) N Xs /\
    ended n F b (Xs N) (Rmax (sc_rtol c * distance n y0 b) (sc_atol c)) (sc_maxit c) N cv /\
    F (Xs N) = Ok y /\ F x = Ok y /\
    (forall i, (i < nu)%nat -> vnth x i = vnth (Xs N) i) /\
    (if pres_dbc then x = Xs N else (exists p, forall i, (nu <= i < n)%nat -> vnth x i = vnth (Xs N) i - p) /\ rsum np (fun j => vnth x (nu + j)) = 0).
Proof.
  intros ns vs fo op hs itf pres_dbc c next fs rnd gen rhs u junk junk2 ((udim & ndofs & vdim & Hu & Ef) & Sr & Su & Lj & Lj2 & W & Wn & Wc & Wh & Wi & Wp & Wx & Wr).
  destruct (flow_offsets_ok ns udim vs ndofs vdim Hu) as (fo' & E' & _ & _ & _ & _ & Ou & Op & _). rewrite Ef in E'. injection E' as <-.
  destruct (offsets_byvar_ok ns _ _ _ _ Ou Op) as (off & Eo & _).
  exact (steady_ok ns udim vs ndofs vdim fo off Hu Ef Eo op hs itf pres_dbc c next fs rnd gen rhs u junk junk2 Sr Su Lj Lj2 W Wn Wc Wh Wi Wp Wx Wr).
Qed.
Print Assumptions C133_solution.

(** In particular the state returned as converged solves the equations to the tolerances. *)
Theorem C133_converged : forall ns vs fo op hs itf pres_dbc c next fs rnd gen rhs u junk junk2 u' saved,
  steady_setting ns vs fo op hs itf pres_dbc c next fs rhs u junk junk2 ->
  let n := (nsum ns (fun m => vs m 0%nat) + nsum ns (fun m => vs m 1%nat))%nat in
  steady_solve ns fo pres_dbc c (fom_mult op hs itf) next fs rnd gen rhs u junk junk2 = Ok (u', true, saved) ->
  saved = gen /\ exists b x y x0 y0, ordered ns vs rhs b /\ ordered ns vs u' x /\ fom_mult op hs itf x = Ok y /\ fom_mult op hs itf x0 = Ok y0 /\
    distance n y b <= Rmax (sc_rtol c * distance n y0 b) (sc_atol c).
Proof.
  intros ns vs fo op hs itf pres_dbc c next fs rnd gen rhs u junk junk2 u' saved St n E.
  destruct (C133_solution _ _ _ _ _ _ _ _ _ _ rnd gen _ _ _ _ St) as (u1 & cv & b & x0 & y0 & x & N & Xs & y & E1 & _ & Ob & Ox & _ & Ey0 & _ & (_ & y1 & Ey1 & Ed) & Ey & Ex & _).
  rewrite E in E1. injection E1 as <- <- ->. rewrite Ey in Ey1. injection Ey1 as <-. split; [reflexivity|]. exists b, x, y, x0, y0. auto.
Qed.
Print Assumptions C133_converged.

(** Restarted from a file whose state is within the absolute tolerance the solve keeps it, up to a constant pressure; and altogether if the
    boundary fixes the pressure or if the pressures of the file add up to zero. *)
Theorem C133_restart : forall ns vs fo op hs itf pres_dbc c next fs rnd gen rhs u junk junk2 name d b xd yd,
  steady_setting ns vs fo op hs itf pres_dbc c next fs rhs u junk junk2 ->
  let nu := nsum ns (fun m => vs m 0%nat) in let np := nsum ns (fun m => vs m 1%nat) in let n := (nu + np)%nat in
  sc_restart c = Some name -> load_solution fs name (bv_dat u) = Ok d -> ordered ns vs rhs b -> ordered ns vs (BVec (bv_off u) d) xd ->
  fom_mult op hs itf xd = Ok yd -> distance n yd b <= sc_atol c ->
  exists u', steady_solve ns fo pres_dbc c (fom_mult op hs itf) next fs rnd gen rhs u junk junk2 = Ok (u', true, gen) /\
    (forall m k, (m < ns)%nat -> (k < vs m 0%nat)%nat -> bentry u' (by_sub 2 m 0) k = bentry (BVec (bv_off u) d) (by_sub 2 m 0) k) /\
    (exists p, forall m k, (m < ns)%nat -> (k < vs m 1%nat)%nat -> bentry u' (by_sub 2 m 1) k = bentry (BVec (bv_off u) d) (by_sub 2 m 1) k - p) /\
    (pres_dbc = true \/ rsum np (fun j => vnth xd (nu + j)) = 0 ->
     forall m k, (m < ns)%nat -> (k < vs m 1%nat)%nat -> bentry u' (by_sub 2 m 1) k = bentry (BVec (bv_off u) d) (by_sub 2 m 1) k).
Proof.
  intros ns vs fo op hs itf pres_dbc c next fs rnd gen rhs u junk junk2 name d b xd yd St nu np n Er Ed Ob Od Eyd Hd.
  destruct (C133_solution _ _ _ _ _ _ _ _ _ _ rnd gen _ _ _ _ St) as (u' & cv & b' & x0 & y0 & x & N & Xs & y & E1 & _ & Ob' & Ox & Start & Ey0 & It & (Hn & y1 & Ey1 & En) & Ey & Ex & Xu & Xp).
  fold nu np in It, En, Xu, Xp. fold n in It, En, Xp. rewrite Er in Start. destruct Start as (d' & Ed' & Ox0). rewrite Ed in Ed'. injection Ed' as <-.
  assert (b' = b) as -> by apply (ordered_unique ns vs _ _ _ Ob' Ob). assert (x0 = xd) as -> by apply (ordered_unique ns vs _ _ _ Ox0 Od). rewrite Eyd in Ey0. injection Ey0 as <-.
  pose proof (Rmax_r (sc_rtol c * distance n yd b) (sc_atol c)) as Hm. set (goal := Rmax _ _) in *.
  destruct N as [|N].
  2:{ destruct (it_step _ _ _ _ _ _ _ _ It 0%nat ltac:(lia)) as (y2 & _ & _ & Q1 & Q2 & _). rewrite (it_start _ _ _ _ _ _ _ _ It) in Q1. rewrite Eyd in Q1. injection Q1 as <-. lra. }
  rewrite (it_start _ _ _ _ _ _ _ _ It) in *. rewrite Ey in Ey1. injection Ey1 as <-. rewrite Eyd in Ey. injection Ey as <-.
  assert (cv = true) as -> by (destruct cv; [reflexivity|]; destruct En; lra).
  destruct Ox as (_ & Ov & Op). destruct Od as (_ & Dv & Dp). exists u'. split; [exact E1|].
  assert (Hnu : forall m k, (m < ns)%nat -> (k < vs m 0%nat)%nat -> (nsum m (fun j => vs j 0%nat) + k < nu)%nat) by (intros; apply nsum_inside; auto).
  assert (Hnp : forall m k, (m < ns)%nat -> (k < vs m 1%nat)%nat -> (nsum m (fun j => vs j 1%nat) + k < np)%nat) by (intros; apply nsum_inside; auto).
  split; [intros m k Hm1 Hk; rewrite <- Ov, <- Dv by auto; apply Xu, Hnu; auto|].
  assert (P : exists p, (forall i, (nu <= i < n)%nat -> vnth x i = vnth xd i - p) /\ (pres_dbc = true \/ rsum np (fun j => vnth xd (nu + j)) = 0 -> (0 < np)%nat -> p = 0)).
  { destruct pres_dbc; [exists 0; split; [intros; subst; ring|auto]|]. destruct Xp as ((p & Hp) & Z). exists p. split; [exact Hp|]. intros [[=]|Z'] Pos.
    rewrite (rsum_ext np _ (fun j => vnth xd (nu + j) - p)) in Z by (intros j Hj; apply Hp; unfold n; lia). rewrite rsum_minus, rsum_const, Z' in Z. apply lt_0_INR in Pos.
    assert (Q : INR np * p = 0) by lra. apply Rmult_integral in Q. destruct Q; [lra|assumption]. }
  destruct P as (p & Hp & Hz). split.
  - exists p. intros m k Hm1 Hk. rewrite <- Op, <- Dp by auto. apply Hp. fold nu. specialize (Hnp m k Hm1 Hk). unfold n. lia.
  - intros Q m k Hm1 Hk. rewrite <- Op, <- Dp by auto. specialize (Hnp m k Hm1 Hk). fold nu. rewrite Hp by (unfold n; lia). rewrite Hz by (auto; lia). ring.
Qed.
Print Assumptions C133_restart.

(** The state of the file, and what the operator makes of it. *)
Example restart_example gen : exists atol u', steady_solve 2 xm_fo false (SCfg 0 atol 3 (Some "sol.h5"%string)) (fom_mult xst_op xst_hs None) xst_next xst_fs (fun _ => 1) gen xm_sub xm_sub (repeat 0 9) (repeat 0 9)
  = Ok (u', true, gen) /\ bentry u' (by_sub 2 1 0) 2 = 5 /\ bentry u' (by_sub 2 1 1) 0 = -20.
Proof.
  set (xd := [1; 2; 3; 4; 5; 6; 10; -20; 10] : vec). assert (Lb : ordered 2 xm_size xm_sub [1; 2; 3; 4; 5; 6; 10; 20; 30]).
  { split; [reflexivity|]. split; intros m k Hm Hk; (destruct m as [|[|m]]; [| |lia]); cbn in Hk; do 4 (destruct k as [|k]; [first [lia|reflexivity]|]); lia. }
  destruct (fom_value xst_op 2 _ xst_ok xst_hs None xd eq_refl xst_len ltac:(discriminate)) as (yd & Ey & _).
  exists (distance 9 yd [1; 2; 3; 4; 5; 6; 10; 20; 30]).
  destruct (C133_restart 2 xm_size xm_fo xst_op xst_hs None false (SCfg 0 (distance 9 yd [1; 2; 3; 4; 5; 6; 10; 20; 30]) 3 (Some "sol.h5"%string)) xst_next xst_fs (fun _ => 1) gen xm_sub xm_sub (repeat 0 9) (repeat 0 9)
    "sol.h5" xst_d [1; 2; 3; 4; 5; 6; 10; 20; 30] xd yd) as (u' & E & Hu & _ & Hp).
  - apply setting_example. auto.
  - reflexivity.
  - exact xst_load.
  - exact Lb.
  - exact xst_ordered.
  - exact Ey.
  - cbn [sc_atol]. apply Rle_refl.
  - exists u'. split; [exact E|]. split; [rewrite Hu by (cbn; lia); reflexivity|]. rewrite Hp; [reflexivity| |lia|cbn; lia].
    right. change (nsum 2 (fun m => xm_size m 1)) with 3%nat. change (nsum 2 (fun m => xm_size m 0)) with 6%nat. cbn. unfold vnth. cbn. lra.
Qed.

(** Linear equations and an exact linear solver: one iteration is enough. *)
Theorem C133_linear : forall ns vs fo op hs pres_dbc c next fs rnd gen rhs u junk junk2,
  steady_setting ns vs fo op hs None pres_dbc c next fs rhs u junk junk2 ->
  let nu := nsum ns (fun m => vs m 0%nat) in let n := (nu + nsum ns (fun m => vs m 1%nat))%nat in
  (forall m v k, vnth (hs m v) k = 0) ->
  (forall xs r d, List.length r = n -> next xs r = Ok d -> forall p, (p < n)%nat -> rsum n (fun q => lin_entry op nu p q * vnth d q) = vnth r p) ->
  0 <= sc_atol c -> (1 <= sc_maxit c)%nat ->
  exists u', steady_solve ns fo pres_dbc c (fom_mult op hs None) next fs rnd gen rhs u junk junk2 = Ok (u', true, gen).
Proof.
  intros ns vs fo op hs pres_dbc c next fs rnd gen rhs u junk junk2 St nu n Hh Hx Ha Hi.
  destruct (C133_solution _ _ _ _ _ _ _ _ _ _ rnd gen _ _ _ _ St) as (u' & cv & b & x0 & y0 & x & N & Xs & y & E1 & _ & _ & _ & _ & _ & It & (Hn & y1 & Ey1 & En) & Ey & _).
  pose proof (Rmax_r (sc_rtol c * distance n y0 b) (sc_atol c)) as Hm. fold nu in E1, It, En, Ey. fold n in It, En. set (goal := Rmax _ _) in *.
  exists u'. destruct cv; [exact E1|]. exfalso. destruct En as (-> & En).
  destruct (sc_maxit c) as [|M] eqn:EM; [lia|].
  destruct St as (_ & _ & _ & _ & _ & W & Wn & _ & Wh & Wi & _). fold nu in Wn, Wi. fold n in Wn.
  assert (V : forall z w : vec, List.length z = n -> fom_mult op hs None z = Ok w -> forall p, (p < n)%nat -> vnth w p = rsum n (fun q => lin_entry op nu p q * vnth z q)).
  { intros z w Lz Ew p Hp. destruct (fom_value op ns _ W hs None z ltac:(rewrite Wn; exact Lz) Wh Wi) as (w' & Ew' & _ & V1 & V2). assert (Qw : Ok w = Ok w') by (rewrite <- Ew; exact Ew'). injection Qw as <-. rewrite Wn in V1, V2.
    fold nu in V1, V2. destruct (Nat.lt_ge_cases p nu) as [Q|Q]; [|apply V2; lia]. destruct (nsum_find ns (fun m => vs m 0%nat) p Q) as (m & k & Hm1 & Hk & ->).
    rewrite (V1 m k Hm1 Hk), Hh. unfold itf_val. ring. }
  destruct (it_step _ _ _ _ _ _ _ _ It 0%nat ltac:(lia)) as (ya & ra & da & A1 & A2 & A3 & A4 & A5 & A6).
  pose proof (it_len _ _ _ _ _ _ _ _ It 0%nat ltac:(lia)) as L0. pose proof (it_len _ _ _ _ _ _ _ _ It 1%nat ltac:(lia)) as L1.
  assert (Z : forall w, fom_mult op hs None (Xs 1%nat) = Ok w -> distance n w b = 0).
  { intros w Ew. unfold distance. rewrite (rsum_ext n _ (fun _ => 0)); [rewrite rsum_zero; apply sqrt_0|]. intros p Hp. rewrite (V _ _ L1 Ew p Hp).
    rewrite (rsum_ext n _ (fun q => lin_entry op nu p q * vnth (Xs 0%nat) q - lin_entry op nu p q * vnth da q)) by (intros q Hq; rewrite A6 by exact Hq; ring).
    rewrite rsum_minus, <- (V _ _ L0 A1 p Hp), (Hx _ _ _ A3 A5 p Hp), (A4 p Hp). ring. }
  destruct M as [|M].
  - rewrite (Z _ Ey1) in En. lra.
  - destruct (it_step _ _ _ _ _ _ _ _ It 1%nat ltac:(lia)) as (yb & _ & _ & B1 & B2 & _). rewrite (Z _ B1) in B2. lra.
Qed.
Print Assumptions C133_linear.

(** One velocity, one pressure: [2 u + p] and [u]. *)
Definition xst_lop : nsop := NsOp [0; 1]%nat 2 (fun _ _ => 2) (fun _ _ => 1) (fun _ _ => 1) None.
Definition xst_exact (xs : list vec) (r : vec) : outcome vec := Ok [vnth r 1; vnth r 0 - 2 * vnth r 1].
Example linear_example : exists u', steady_solve 1 (FlowOff [0; 1; 2] [0; 1; 2] [2] [0; 2] [0; 1] [0; 1] [0; 1; 2])%nat true (SCfg 0 0 1 None) (fom_mult xst_lop (fun _ v => map (fun _ => 0) v) None)
  xst_exact xst_fs (fun _ => 5) false (BVec [0; 1; 2]%nat [3; 4]) (BVec [0; 1; 2]%nat [0; 0]) [0; 0] [0; 0] = Ok (u', true, false).
Proof.
  apply (C133_linear 1 (fun _ _ => 1%nat)).
  - unfold steady_setting. change (nsum 1 (fun _ => 1%nat)) with 1%nat. cbv zeta. change (1 + 1)%nat with 2%nat.
    assert (Sh : forall a b, sub_shaped 1 2 (fun _ _ => 1%nat) (BVec [0; 1; 2]%nat [a; b])).
    { intros a b. exists (fun _ => 1%nat). split; [|auto]. repeat split. intros [|[|i]] Hi; try reflexivity. lia. }
    split; [exists 2%nat, (fun _ _ => 1%nat), (fun _ => 1%nat); split; reflexivity|]. split; [apply Sh|]. split; [apply Sh|]. split; [reflexivity|]. split; [reflexivity|].
    split; [split; [repeat split; intros [|i] H; [reflexivity|lia]|cbn; lia]|]. split; [reflexivity|]. split; [reflexivity|]. split; [intros m v _ L; rewrite map_length; exact L|]. split; [discriminate|].
    split; [discriminate|]. split; [intros xs r _; eexists; split; reflexivity|discriminate].
  - intros _ v k. unfold vnth. revert k. induction v as [|a v IH]; intros [|k]; cbn [map nth]; auto.
  - intros xs r d _ [= <-] p Hp. change (nsum 1 (fun _ => 1%nat)) with 1%nat in *. change (1 + 1)%nat with 2%nat in *. destruct p as [|[|p]]; [| |lia]; cbn; unfold vnth; cbn; ring.
  - cbn. lra.
  - cbn. lia.
Qed.

(** ** C134 *)

(** Without a preconditioner (or with one, if it is given) Newton's iteration of the reduced equations starts from the projection of the given
    state or from random numbers and runs until the residual is below the tolerances or all iterations are used; the state returned is the
    combination of the bases with the last iterate. *)
Theorem C134_solution : forall s dim c F next cc co prec rnd b U junk t, bases_ok s dim ->
  let h := rs_h s in let n := nth (blocks h) (rs_off s) 0%nat in
  fits h (fom_place h) (full_size h dim) U -> List.length junk = n -> List.length (bv_dat b) = n -> chosen (rc_linear c) (rc_system c) t ->
  rc_nonlinear c = "newton"%string -> (rc_prec c = "none"%string \/ prec = true) -> (forall x, List.length x = n -> exists y, F x = Ok y /\ List.length y = n) ->
  (forall xs r, List.length r = n -> exists d, next t xs r = Ok d /\ List.length d = n) ->
  exists V x x0 y0 N Xs cv, rom_nonlinear_solve c s F next cc co prec rnd (Some b) U junk = Some (Ok (V, BVec (rs_off s) x)) /\
    (if rc_restart c then forall m v k, unknown h m v -> (k < basis_size h m v)%nat ->
       entry (place h) (BVec (rs_off s) x0) m v k = rsum (full_size h dim m v) (fun i => mget (basis_of s m v) i k * entry (fom_place h) U m v i)
     else forall k, (k < n)%nat -> vnth x0 k = rc_amp c * rnd k) /\
    F x0 = Ok y0 /\ iterates n F (next t) (bv_dat b) x0 (Rmax (rc_rtol c * distance n y0 (bv_dat b)) (rc_atol c)) N Xs /\ Xs N = x /\
    ended n F (bv_dat b) x (Rmax (rc_rtol c * distance n y0 (bv_dat b)) (rc_atol c)) (rc_maxit c) N cv /\
    forall m v i, unknown h m v -> (i < full_size h dim m v)%nat ->
      entry (fom_place h) V m v i = rsum (basis_size h m v) (fun k => mget (basis_of s m v) i k * entry (place h) (BVec (rs_off s) x) m v k).
Proof.
  intros s dim c F next cc co prec rnd b U junk t B h n FU Lj Lb Ct Cn Cp HF Hx.
  destruct (rom_newton_ok s dim B c F next cc co prec rnd b U junk t FU Lj Lb Ct Cn Cp HF Hx) as (V & x & x0 & y0 & N & Xs & cv & E & Lx0 & St & Ey0 & It & XN & En & EV).
  fold h in It, En. fold n in It, En, Lx0. exists V, x, x0, y0, N, Xs, cv. split; [exact E|]. split.
  { destruct (rc_restart c); [|exact St]. destruct (C36_projection s dim U junk B FU Lj) as (r & Er & _ & Hr). rewrite St in Er. injection Er as <-. exact Hr. }
  split; [exact Ey0|]. split; [exact It|]. split; [exact XN|]. split; [exact En|].
  assert (Lx : List.length x = n) by (rewrite <- XN; apply (it_len _ _ _ _ _ _ _ _ It); lia).
  destruct (C36_lifting s dim (BVec (rs_off s) x) U B (fits_n s dim B x Lx) FU) as (V' & EV' & _ & HV). rewrite EV in EV'. injection EV' as <-. exact HV.
Qed.
Print Assumptions C134_solution.

Example C134_example o restart : exists V x, rom_nonlinear_solve (xst_rc "none" restart) (ex_st o) xst_Fr xst_nr xst_cc xst_co false (fun _ => 1) (Some (ex_r o)) ex_V (repeat 0 6) =
  Some (Ok (V, BVec (rs_off (ex_st o)) x)).
Proof.
  destruct (C134_solution (ex_st o) (fun _ => 2%nat) (xst_rc "none" restart) xst_Fr xst_nr xst_cc xst_co false (fun _ => 1) (ex_r o) ex_V (repeat 0 6) Direct (ex_bases o)) as (V & x & _ & _ & _ & _ & _ & E & _).
  - apply ex_V_fits.
  - destruct o; reflexivity.
  - destruct o; reflexivity.
  - split; [reflexivity|]. auto.
  - reflexivity.
  - left. reflexivity.
  - apply xst_Fr_ok.
  - intros xs r L. exists r. auto.
  - exists V, x. exact E.
Qed.

(** Restarted from a state the bases represent, whose coefficients are within the absolute tolerance, the solve returns these coefficients. *)
Theorem C134_restart : forall s dim c F next cc co prec rnd b U junk t r V0 yr, bases_ok s dim ->
  let h := rs_h s in let n := nth (blocks h) (rs_off s) 0%nat in
  fits h (place h) (basis_size h) r -> bv_off r = rs_off s -> fits h (fom_place h) (full_size h dim) V0 -> lift_global s r V0 = Ok U ->
  (forall m v, unknown h m v -> ortho_cols (basis_of s m v)) ->
  List.length junk = n -> List.length (bv_dat b) = n -> chosen (rc_linear c) (rc_system c) t ->
  rc_nonlinear c = "newton"%string -> (rc_prec c = "none"%string \/ prec = true) -> (forall x, List.length x = n -> exists y, F x = Ok y /\ List.length y = n) ->
  (forall xs r, List.length r = n -> exists d, next t xs r = Ok d /\ List.length d = n) ->
  rc_restart c = true -> F (bv_dat r) = Ok yr -> distance n yr (bv_dat b) <= rc_atol c ->
  exists V, rom_nonlinear_solve c s F next cc co prec rnd (Some b) U junk = Some (Ok (V, r)) /\
    forall m v i, unknown h m v -> (i < full_size h dim m v)%nat -> entry (fom_place h) V m v i = entry (fom_place h) U m v i.
Proof.
  intros s dim c F next cc co prec rnd b U junk t r V0 yr B h n Fr Or FV0 EU Hq Lj Lb Ct Cn Cp HF Hx Hre Eyr Hd.
  destruct (C36_lifting s dim r V0 B Fr FV0) as (U' & EU' & FU & HU). rewrite EU in EU'. injection EU' as <-.
  pose proof (C36_round_trip s dim r V0 junk B Fr Or FV0 Lj Hq) as RT. rewrite EU in RT. cbn [obind] in RT.
  destruct (rom_newton_ok s dim B c F next cc co prec rnd b U junk t FU Lj Lb Ct Cn Cp HF Hx) as (V & x & x0 & y0 & N & Xs & cv & E & Lx0 & St & Ey0 & It & XN & En & EV).
  rewrite Hre, RT in St. injection St as Er. fold h in It, En. fold n in It, En, Lx0.
  destruct r as [ro rd]. cbn [bv_off] in Or. subst ro. cbn [bv_dat] in Eyr. injection Er as <-.
  rewrite Eyr in Ey0. injection Ey0 as <-. pose proof (Rmax_r (rc_rtol c * distance n yr (bv_dat b)) (rc_atol c)) as Hm. set (goal := Rmax _ _) in *.
  destruct N as [|N].
  2:{ destruct (it_step _ _ _ _ _ _ _ _ It 0%nat ltac:(lia)) as (y2 & _ & _ & Q1 & Q2 & _). rewrite (it_start _ _ _ _ _ _ _ _ It) in Q1. rewrite Eyr in Q1. injection Q1 as <-. lra. }
  rewrite (it_start _ _ _ _ _ _ _ _ It) in XN. subst x. exists V. split; [exact E|].
  destruct (C36_lifting s dim (BVec (rs_off s) rd) U B Fr FU) as (V' & EV' & _ & HV). rewrite EV in EV'. injection EV' as <-. intros m v i Hu Hi. exact (eq_trans (HV m v i Hu Hi) (eq_sym (HU m v i Hu Hi))).
Qed.
Print Assumptions C134_restart.

Example C134_restart_example o : exists U V, lift_global (ex_st o) (ex_r o) ex_V = Ok U /\
  rom_nonlinear_solve (xst_rc "none" true) (ex_st o) xst_Fr xst_nr xst_cc xst_co false (fun _ => 1) (Some (ex_r o)) U (repeat 0 6) = Some (Ok (V, ex_r o)).
Proof.
  destruct (C36_lifting (ex_st o) (fun _ => 2%nat) (ex_r o) ex_V (ex_bases o) (ex_r_fits o) (ex_V_fits o)) as (U & EU & _). exists U.
  destruct (C134_restart (ex_st o) (fun _ => 2%nat) (xst_rc "none" true) xst_Fr xst_nr xst_cc xst_co false (fun _ => 1) (ex_r o) U (repeat 0 6) Direct (ex_r o) ex_V (bv_dat (ex_r o)) (ex_bases o)) as (V & E & _).
  - apply ex_r_fits.
  - reflexivity.
  - apply ex_V_fits.
  - exact EU.
  - intros m v Hu. apply ex_ortho. exact Hu.
  - destruct o; reflexivity.
  - destruct o; reflexivity.
  - split; [reflexivity|]. auto.
  - reflexivity.
  - left. reflexivity.
  - apply xst_Fr_ok.
  - intros xs r L. exists r. auto.
  - reflexivity.
  - reflexivity.
  - cbn [rc_atol xst_rc]. unfold distance. rewrite (rsum_ext _ _ (fun _ => 0)) by (intros; ring). rewrite rsum_zero, sqrt_0. lra.
  - exists V. auto.
Qed.

(** With any preconditioner in the options, the reduced solve of the steady flow equations gives no result, whatever the rest. *)
Theorem C134_preconditioner : forall c file fs s F next cc co rnd rhs U junk V x, rc_prec c <> "none"%string ->
  steady_solve_rom c file fs s F next cc co rnd rhs U junk <> Some (Ok (V, x)).
Proof.
  intros c file fs s F next cc co rnd rhs U junk V x Hp. unfold steady_solve_rom. destruct (if rc_restart c then _ else _) as [U1| |]; try discriminate.
  unfold rom_nonlinear_solve. destruct (rom_lin_type c); try discriminate. destruct (negb _); try discriminate. destruct (if rc_restart c then _ else _) as [x0| |]; try discriminate.
  destruct (string_dec (rc_prec c) "none"); [contradiction|]. cbn [negb]. discriminate.
Qed.
Print Assumptions C134_preconditioner.
Theorem C134_preconditioner_refuted : exists file fs s F next cc co rnd rhs U junk,
  (exists r, steady_solve_rom (xst_rc "none" false) file fs s F next cc co rnd rhs U junk = Some (Ok r)) /\
  steady_solve_rom (xst_rc "amg" false) file fs s F next cc co rnd rhs U junk = Some Abort.
Proof.
  exists "sol.h5"%string, xst_fs, (ex_st ByDomain), xst_Fr, xst_nr, xst_cc, xst_co, (fun _ => 1), (Some (ex_r ByDomain)), ex_V, (repeat 0 6). split.
  - destruct (C134_example ByDomain false) as (V & x & E). exists (V, BVec (rs_off (ex_st ByDomain)) x). exact E.
  - reflexivity.
Qed.
Print Assumptions C134_preconditioner_refuted.

(** The result of a solve that has met no tolerance is returned like that of one that has. *)
Theorem C134_unconverged_refuted : exists c file fs s F next cc co rnd b U junk V x y, rc_rtol c = 0 /\ rc_atol c = 0 /\
  steady_solve_rom c file fs s F next cc co rnd (Some b) U junk = Some (Ok (V, x)) /\ F (bv_dat x) = Ok y /\ 0 < distance (List.length (bv_dat b)) y (bv_dat b).
Proof.
  destruct (C134_solution (ex_st ByDomain) (fun _ => 2%nat) (xst_rc "none" false) xst_Fr xst_nr xst_cc xst_co false (fun _ => 7) (ex_r ByDomain) ex_V (repeat 0 6) Direct (ex_bases ByDomain))
    as (V & x & x0 & y0 & N & Xs & cv & E & X0 & _ & It & XN & (HN & _) & _).
  - apply ex_V_fits.
  - reflexivity.
  - reflexivity.
  - split; [reflexivity|]. auto.
  - reflexivity.
  - left. reflexivity.
  - apply xst_Fr_ok.
  - intros xs r L. exists r. auto.
  - cbn [rc_maxit xst_rc] in HN. assert (N = 0%nat) as -> by lia. rewrite (it_start _ _ _ _ _ _ _ _ It) in XN. subst x0.
    exists (xst_rc "none" false), "sol.h5"%string, xst_fs, (ex_st ByDomain), xst_Fr, xst_nr, xst_cc, xst_co, (fun _ => 7), (ex_r ByDomain), ex_V, (repeat 0 6), V, (BVec (rs_off (ex_st ByDomain)) x), x.
    split; [reflexivity|]. split; [reflexivity|]. split; [exact E|]. split; [reflexivity|]. cbn [bv_dat List.length ex_r]. unfold distance. apply sqrt_lt_R0.
    cbn [rc_restart xst_rc rc_amp] in X0. change (nth _ _ _) with 6%nat in X0. assert (Q : vnth x 0 = 7) by (rewrite X0 by lia; ring).
    rewrite rsum_S_l. rewrite Q. change (vnth [1; 2; 3; 4; 5; 6] 0) with 1. assert (0 <= rsum 5 (fun i => (vnth x (S i) - vnth [1; 2; 3; 4; 5; 6] (S i)) * (vnth x (S i) - vnth [1; 2; 3; 4; 5; 6] (S i)))); [|lra].
    apply rsum_nonneg. intros i _. apply Rle_0_sqr.
Qed.
Print Assumptions C134_unconverged_refuted.

(** The solvers that can be named. *)
Theorem C134_names : forall c s F next cc co prec rnd rhs U junk V x, rom_nonlinear_solve c s F next cc co prec rnd rhs U junk = Some (Ok (V, x)) ->
  (exists t, chosen (rc_linear c) (rc_system c) t) /\ (rc_nonlinear c = "newton"%string \/ rc_nonlinear c = "cg"%string) /\ rhs <> None.
Proof.
  intros c s F next cc co prec rnd rhs U junk V x E. unfold rom_nonlinear_solve in E. destruct (rom_lin_type c) as [t| |] eqn:Et; try discriminate. apply rom_lin_type_ok in Et.
  split; [exists t; exact Et|]. destruct (negb (bv_n U =? _)%nat); try discriminate. destruct (if rc_restart c then _ else _) as [x0| |]; try discriminate. destruct (negb (if string_dec _ _ then _ else _)); try discriminate.
  destruct (string_dec (rc_nonlinear c) "newton"); [|destruct (string_dec (rc_nonlinear c) "cg"); [|discriminate]]; (split; [auto|]); destruct rhs; congruence || discriminate.
Qed.
Print Assumptions C134_names.
