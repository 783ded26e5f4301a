(** Reduced steady Navier-Stokes operators: theorems. *)
From Coq Require Import Reals List Bool Lia Arith ZArith Lra.
From Verif Require Import Outcome LaBase LinalgModel LinalgSpec BlockVec TagsModel RomModel RomSpec IntegProofs NsModel NsSpec NsProofs NsRomProofs NsEqpProofs NsPatternProofs NsExamples.
Import ListNotations.
Local Open Scope R_scope.

(** ** Tensor ROM *)

(** The operator is the linear one plus, on the velocity unknowns of each subdomain, the tensor contracted twice with its velocity. *)
Theorem C58_operator : forall h off size lin hs x, flow_rom h off size lin -> tensors_fit h size hs ->
  List.length x = nsum (blocks h) size ->
  exists s y, ns_init h off lin (rh_nsub h) = Ok s /\ tensor_rom_mult s hs x = Ok y /\ List.length y = nsum (blocks h) size /\
    (forall m k, (m < rh_nsub h)%nat -> (k < vsize h size m)%nat ->
       vnth y (vel h off m + k) = rsum (nsum (blocks h) size) (fun b => sm_val lin (vel h off m + k) b * vnth x b) +
         contraction (nth m hs (Tensor 0 0 0 [])) (fun i => vnth x (vel h off m + i)) (fun i => vnth x (vel h off m + i)) k) /\
    (forall p, (p < nsum (blocks h) size)%nat -> no_velocity h off size p ->
       vnth y p = rsum (nsum (blocks h) size) (fun b => sm_val lin p b * vnth x b)).
Proof.
  intros h off size lin hs x W Ht Lx. destruct (tensor_value h off size lin W hs x Ht Lx) as (y & E & H). exists (ns_of h off size lin), y.
  split; [apply (ns_init_ok h off size lin W)|]. split; auto.
Qed.
Print Assumptions C58_operator.

(** The gradient is the derivative, in every direction, of every entry; the operator is quadratic, so the expansion is exact. *)
Theorem C58_tangent : forall h off size lin hs x, flow_rom h off size lin -> tensors_fit h size hs -> takes_velocity h off size lin ->
  List.length x = nsum (blocks h) size ->
  exists s J, ns_init h off lin (rh_nsub h) = Ok s /\ tensor_rom_grad s hs x = Ok J /\ sm_h J = nsum (blocks h) size /\ sm_w J = nsum (blocks h) size /\
    forall d p, (p < nsum (blocks h) size)%nat -> exists F q,
      (forall t, exists y, tensor_rom_mult s hs (vplus (nsum (blocks h) size) x d t) = Ok y /\ vnth y p = F t) /\
      derivable_pt_lim F 0 (rsum (nsum (blocks h) size) (fun b => sm_val J p b * vnth d b)) /\
      forall t, F t = F 0 + t * rsum (nsum (blocks h) size) (fun b => sm_val J p b * vnth d b) + t * t * q.
Proof.
  intros h off size lin hs x W Ht Tk Lx. destruct (tensor_grad h off size lin W hs x Ht Tk Lx) as (J & E & Jh & Jw & _). exists (ns_of h off size lin), J.
  split; [apply (ns_init_ok h off size lin W)|]. split; auto. split; auto. split; auto. intros d p Hp.
  destruct (tensor_line h off size lin W hs x d J Ht Tk Lx E p Hp) as (c & q & H).
  exists (fun t => c + t * rsum (nsum (blocks h) size) (fun b => sm_val J p b * vnth d b) + t * t * q), q. split; [|split].
  - intros t. destruct (H t) as (y & A & _ & B). exists y. auto.
  - apply (quadratic_derivative _ c _ q). reflexivity.
  - intros t. ring.
Qed.
Print Assumptions C58_tangent.

(** The Jacobian is accumulated in the pattern of the linear matrix: every entry with a nonzero convective derivative has to be
    stored there. *)
Theorem C58_pattern : forall h off size lin hs x s J, flow_rom h off size lin -> tensors_fit h size hs ->
  List.length x = nsum (blocks h) size -> sm_fin lin = true -> ns_init h off lin (rh_nsub h) = Ok s -> tensor_rom_grad s hs x = Ok J ->
  forall m k j, (m < rh_nsub h)%nat -> (k < vsize h size m)%nat -> (j < vsize h size m)%nat ->
    rsum (vsize h size m) (fun i => tget (nth m hs (Tensor 0 0 0 [])) i j k * vnth x (vel h off m + i)) +
    rsum (vsize h size m) (fun i => tget (nth m hs (Tensor 0 0 0 [])) j i k * vnth x (vel h off m + i)) <> 0 ->
    sm_has lin (vel h off m + k) (vel h off m + j) = true.
Proof.
  intros h off size lin hs x s J W Ht Lx Fin Es EJ. rewrite (ns_init_ok h off size lin W) in Es. injection Es as <-. exact (tensor_need h off size lin W hs x J Ht Lx Fin EJ).
Qed.
Print Assumptions C58_pattern.

(** Without that the gradient cannot be computed although the operator can. *)
Theorem C58_pattern_refuted : exists h off size lin hs x s y, flow_rom h off size lin /\ tensors_fit h size hs /\
  List.length x = nsum (blocks h) size /\ sm_fin lin = true /\ ns_init h off lin (rh_nsub h) = Ok s /\
  tensor_rom_mult s hs x = Ok y /\ forall J, tensor_rom_grad s hs x <> Ok J.
Proof.
  destruct (tensor_value exn_h1 [0; 2]%nat (fun _ => 2%nat) exn_diag exn_flow1 [exn_T 2 1] [1; 0] exn_tensors1 eq_refl) as (y & E & _).
  exists exn_h1, [0; 2]%nat, (fun _ => 2%nat), exn_diag, [exn_T 2 1], [1; 0], (ns_of exn_h1 [0; 2]%nat (fun _ => 2%nat) exn_diag), y.
  split; [apply exn_flow1|]. split; [apply exn_tensors1|]. split; [reflexivity|]. split; [reflexivity|].
  split; [apply (ns_init_ok _ _ _ _ exn_flow1)|]. split; [exact E|]. intros J EJ.
  pose proof (tensor_need _ _ _ _ exn_flow1 [exn_T 2 1] [1; 0] J exn_tensors1 eq_refl eq_refl EJ 0%nat 0%nat 1%nat) as C.
  assert (sm_has exn_diag 0 1 = true) as H; [|discriminate H]. apply C; [repeat constructor|repeat constructor|repeat constructor|]. intros Q.
  unfold tget, vnth in Q. cbn in Q. unfold vnth in Q. cbn in Q. lra.
Qed.
Print Assumptions C58_pattern_refuted.

(** ** Hyper-reduced ROM *)

(** Values: the nonlinear form of each subdomain sees exactly its velocity and is added to exactly its velocity unknowns, the
    interface form sees the velocities of all subdomains in order. *)
Theorem C59_operator : forall h off size lin hs itf x xu, flow_rom h off size lin -> alternate h size ->
  List.length x = nsum (blocks h) size -> List.length xu = nsum (rh_nsub h) (vsize h size) ->
  (forall m v, (m < rh_nsub h)%nat -> List.length v = vsize h size m -> List.length (hs m v) = vsize h size m) ->
  (forall f v, itf = Some f -> List.length v = nsum (rh_nsub h) (vsize h size) -> List.length (f v) = nsum (rh_nsub h) (vsize h size)) ->
  exists s y, ns_init h off lin (rh_nsub h) = Ok s /\ eqp_rom_mult s hs itf x xu = Ok y /\ List.length y = nsum (blocks h) size /\
    (forall m k, (m < rh_nsub h)%nat -> (k < vsize h size m)%nat ->
       vnth y (vel h off m + k) = rsum (nsum (blocks h) size) (fun b => sm_val lin (vel h off m + k) b * vnth x b) +
         vnth (hs m (vel_of h off size x m)) k +
         match itf with None => 0 | Some f => vnth (f (velocities h off size x)) (ustart h size m + k) end) /\
    (forall p, (p < nsum (blocks h) size)%nat -> no_velocity h off size p ->
       vnth y p = rsum (nsum (blocks h) size) (fun b => sm_val lin p b * vnth x b)).
Proof.
  intros h off size lin hs itf x xu W P Lx Lu Hh Hf. destruct (eqp_value h off size lin W P hs itf x xu Lx Lu Hh Hf) as (y & E & H). exists (ns_of h off size lin), y.
  split; [apply (ns_init_ok h off size lin W)|]. split; auto.
Qed.
Print Assumptions C59_operator.

(** The hypothesis on the layout holds for one basis per subdomain and for the ordering by subdomain. *)
Theorem C59_layouts : forall h size, rh_nvar h = 2%nat -> (rh_sep h = false \/ rh_ord h = ByDomain) -> alternate h size.
Proof. exact alternate_layout. Qed.
Print Assumptions C59_layouts.

(** Its gradient is the derivative when the forms' gradients are. *)
Theorem C59_tangent : forall h off size lin hs itf hg ig x d xu, flow_rom h off size lin -> alternate h size ->
  List.length x = nsum (blocks h) size -> List.length xu = nsum (rh_nsub h) (vsize h size) -> takes_velocity h off size lin ->
  (forall m v, (m < rh_nsub h)%nat -> List.length v = vsize h size m -> List.length (hs m v) = vsize h size m) ->
  (forall f v, itf = Some f -> List.length v = nsum (rh_nsub h) (vsize h size) -> List.length (f v) = nsum (rh_nsub h) (vsize h size)) ->
  (forall g, ig = Some g -> blocks_fit h off size lin (g (velocities h off size x))) ->
  (forall m k, (m < rh_nsub h)%nat -> (k < vsize h size m)%nat ->
     has_derivative (vsize h size m) (hs m) (vel_of h off size x m) (vel_of h off size d m) k
       (rsum (vsize h size m) (fun j => mget (hg m (vel_of h off size x m)) k j * vnth d (vel h off m + j)))) ->
  match itf, ig with
  | None, None => True
  | Some f, Some g => forall m k, (m < rh_nsub h)%nat -> (k < vsize h size m)%nat ->
      has_derivative (nsum (rh_nsub h) (vsize h size)) f (velocities h off size x) (velocities h off size d) (ustart h size m + k)
        (rsum (rh_nsub h) (fun j => rsum (vsize h size j) (fun q => sm_val (g (velocities h off size x) m j) k q * vnth d (vel h off j + q))))
  | _, _ => False
  end ->
  exists s J, ns_init h off lin (rh_nsub h) = Ok s /\ eqp_rom_grad s hg ig x xu = Ok J /\
    forall p, (p < nsum (blocks h) size)%nat -> exists F,
      (forall t, exists y, eqp_rom_mult s hs itf (vplus (nsum (blocks h) size) x d t) xu = Ok y /\ vnth y p = F t) /\
      derivable_pt_lim F 0 (rsum (nsum (blocks h) size) (fun b => sm_val J p b * vnth d b)).
Proof.
  intros h off size lin hs itf hg ig x d xu W P Lx Lu Tk Hh Hf Fit Dh Di. destruct (eqp_grad h off size lin W P hg ig x xu Lx Lu Tk Fit) as (J & E & _).
  exists (ns_of h off size lin), J. split; [apply (ns_init_ok h off size lin W)|]. split; auto.
  exact (eqp_line h off size lin W P hs itf hg ig x d xu J Lx Lu Tk Hh Hf Fit Dh Di E).
Qed.
Print Assumptions C59_tangent.

(** With the ordering by variable the interface form does not get the velocities: the offsets are taken from every other block.
    Here the velocity of the second subdomain never reaches it. *)
Theorem C59_variable_refuted : exists h off size lin s uoff, flow_rom h off size lin /\ rh_ord h = ByVariable /\ ns_init h off lin (rh_nsub h) = Ok s /\
  eqp_offsets s = Ok uoff /\ nth (rh_nsub h) uoff 0%nat <> nsum (rh_nsub h) (vsize h size) /\
  forall x xu, List.length x = nsum (blocks h) size -> List.length xu = nth (rh_nsub h) uoff 0%nat ->
    exists v, get_vel s uoff x xu = Ok v /\ vnth v 0 = vnth x (vel h off 0) /\ vnth v 1 = vnth xu 1.
Proof.
  exists (exn_rom ByVariable), exn_off2, exn_size2, exn_lin, (ns_of (exn_rom ByVariable) exn_off2 exn_size2 exn_lin), [0; 1; 2]%nat.
  split; [apply exn_flow2|]. split; [reflexivity|]. split; [apply (ns_init_ok _ _ _ _ exn_flow2)|]. split; [reflexivity|]. split; [cbn; lia|].
  intros x xu Lx Lu. cbn in Lx, Lu. do 6 (destruct x as [|? x]; cbn in Lx; try lia). do 3 (destruct xu as [|? xu]; cbn in Lu; try lia).
  eexists. split; [reflexivity|]. split; reflexivity.
Qed.
Print Assumptions C59_variable_refuted.
