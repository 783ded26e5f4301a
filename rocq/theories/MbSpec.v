(** What the multi-block solver is supposed to do, stated without the functions of the model. *)
From Coq Require Import Reals List Bool Lia Arith ZArith String.
From Verif Require Import Outcome LaBase BlockVec RomModel RomSpec MbModel.
Import ListNotations.
Local Open Scope list_scope.
Local Open Scope nat_scope.

(** A block vector of [nv] variables on [ns] subdomains, with the block of (m, v) at [pl m v]. *)
Definition by_sub (nv m v : nat) : nat := m * nv + v.
Definition by_var (ns m v : nat) : nat := v * ns + m.

(** [b] has [n] blocks of the sizes [size], one behind the other, and nothing else. *)
Definition shaped (n : nat) (size : nat -> nat) (b : bvec) : Prop :=
  List.length (bv_off b) = S n /\ nth 0 (bv_off b) 0 = 0 /\
  (forall i, i < n -> nth (S i) (bv_off b) 0 = nth i (bv_off b) 0 + size i) /\
  List.length (bv_dat b) = nth n (bv_off b) 0.

(** Entry [k] of block [i]. *)
Definition bentry (b : bvec) (i k : nat) : R := vnth (bv_dat b) (nth i (bv_off b) 0 + k).

(** Block vectors of [ns] subdomains with [nv] variables of sizes [size m v], in either order. *)
Definition sub_shaped (ns nv : nat) (size : nat -> nat -> nat) (b : bvec) : Prop :=
  exists s, shaped (nv * ns) s b /\ forall m v, m < ns -> v < nv -> s (by_sub nv m v) = size m v.
Definition var_shaped (ns nv : nat) (size : nat -> nat -> nat) (b : bvec) : Prop :=
  exists s, shaped (nv * ns) s b /\ forall m v, m < ns -> v < nv -> s (by_var ns m v) = size m v.

(** Sum and mean of the values [f m k] of variable [v] over all subdomains. *)
Definition var_sum (ns : nat) (size : nat -> nat -> nat) (v : nat) (f : nat -> nat -> R) : R :=
  rsum ns (fun m => rsum (size m v) (fun k => f m k)).
Definition var_mean (ns : nat) (size : nat -> nat -> nat) (v : nat) (f : nat -> nat -> R) : R :=
  (var_sum ns size v f / INR (nsum ns (fun m => size m v)))%R.

(** Boundary types: the first listing of attribute [a]. *)
Definition first_at (l : list Z) (a : Z) (i : nat) : Prop :=
  nth_error l i = Some a /\ forall j, j < i -> nth_error l j <> Some a.

(** Boundary [b] of subdomain [m] carries a condition that contributes to the operator. *)
Definition essential (a : asm) (m b : nat) : Prop :=
  exists ga g, nth_error (nth m (as_c2g a) []) b = Some ga /\ first_at (as_gattr a) ga g /\
    nth g (as_bc a) false = true /\ nth g (as_btype a) BNone <> BNeumann.

Definition sub_of_side (p : nat * nat * nat) (s : nat) : nat := if s =? 0 then fst (fst p) else snd (fst p).
Definition ptype (p : nat * nat * nat) : nat := snd p.

Definition val (M : option fmat) (p q : nat) : R := match M with Some X => fm_val X p q | None => 0%R end.
Definition ind (b : bool) (x : R) : R := if b then x else 0%R.

Definition no_blocks : mblocks := MBlocks 0 0 (fun _ _ => None).
Definition no_port : nat * nat * nat := (0, 0, 0).

(** The global matrix is the sum of the contributions. [ess] decides [essential]. *)
Definition rom_entry (a : asm) (ess : nat -> nat -> bool) (m v m' v' p q : nat) : R :=
  let h := as_rom a in
  let nbk := if rh_sep h then rh_nvar h else 1 in
  (ind (m =? m')%nat
    (val (mb_get (nth (comp_of h m) (as_comp a) no_blocks) v v') p q
     + rsum (List.length (nth m (as_c2g a) [])) (fun b => ind (ess m b)
         (val (mb_get (nth b (nth (comp_of h m) (as_bdr a) []) no_blocks) v v') p q)))
   + rsum (List.length (as_ports a)) (fun k => let P := nth k (as_ports a) no_port in
       rsum 2 (fun s => rsum 2 (fun t => ind ((sub_of_side P s =? m) && (sub_of_side P t =? m'))%nat
         (val (mb_get (nth (ptype P) (as_port a) no_blocks) (s * nbk + v)%nat (t * nbk + v')%nat) p q)))))%R.

(** A set of element blocks of [n] x [n] whose present blocks have the given sizes. *)
Definition mb_fits (M : mblocks) (n : nat) (size : nat -> nat) : Prop :=
  mb_r M = n /\ mb_c M = n /\
  forall i j X, i < n -> j < n -> mb_get M i j = Some X -> fm_h X = size i /\ fm_w X = size j.

(** Data that belong together. *)
Definition asm_ok (a : asm) : Prop :=
  let h := as_rom a in
  let nbk := if rh_sep h then rh_nvar h else 1 in
  rom_wf h /\ tiles h (place h) (basis_size h) (as_off a) /\
  List.length (as_comp a) = rh_ncomp h /\ List.length (as_bdr a) = rh_ncomp h /\ List.length (as_c2g a) = rh_nsub h /\
  List.length (as_bc a) = List.length (as_gattr a) /\ List.length (as_btype a) = List.length (as_gattr a) /\
  (forall m, m < rh_nsub h -> List.length (nth m (as_c2g a) []) = List.length (nth (comp_of h m) (as_bdr a) [])) /\
  (forall m, m < rh_nsub h -> mb_fits (nth (comp_of h m) (as_comp a) no_blocks) nbk (basis_size h m)) /\
  (forall m b, m < rh_nsub h -> b < List.length (nth m (as_c2g a) []) ->
     mb_fits (nth b (nth (comp_of h m) (as_bdr a) []) no_blocks) nbk (basis_size h m)) /\
  (forall P, In P (as_ports a) -> sub_of_side P 0 < rh_nsub h /\ sub_of_side P 1 < rh_nsub h /\ ptype P < List.length (as_port a) /\
     mb_fits (nth (ptype P) (as_port a) no_blocks) (2 * nbk)
       (fun i => if i <? nbk then basis_size h (sub_of_side P 0) i else basis_size h (sub_of_side P 1) (i - nbk))).

(** Subdomains selected for visualization. *)
Definition selected (v : visual) (m : nat) : Prop :=
  (vi_offset v <= Z.of_nat m)%Z /\ exists k, Z.of_nat m = (k * vi_interval v)%Z.
