(** * T_Trans: property C122: width and height are treated alike. *)
Require Import List Bool Arith ZArith Reals Lra Lia.
Require Import Verif.M_Base Verif.M_Params Verif.M_Buffer Verif.M_Denoise Verif.M_Real.
Require Import Verif.S_Params Verif.S_Buffer Verif.S_Exact Verif.S_Trans Verif.P_Trans.
Import ListNotations.
Open Scope nat_scope.
Local Existing Instance exactR.

(** ** C122: the parameters of the turned picture are accepted, *)
Theorem C122_accepted p p' : accepted p -> turned_params p p' -> accepted p'.
Proof. exact (turn_accepted p p'). Qed.
Print Assumptions C122_accepted.

(** Decompose of turned pictures gives turned subbands, *)
Theorem C122_decompose p p' (b b' : buffer R) data data' den den' :
  accepted p -> turned_params p p' ->
  reachable p b -> reachable p' b' -> keeps_shape den -> keeps_shape den' -> turn_denoisers den den' ->
  (1 <= signum p)%Z -> Z.of_nat (length data) = signum p -> Forall (shaped p) data -> Forall2 transposed data data' ->
  exists b1 b1', decompose b data den = Ok (true, b1) /\ decompose b' data' den' = Ok (true, b1') /\
    bpar b1 = p /\ bpar b1' = p' /\ Forall (has_layout p) (bdec b1) /\ Forall (has_layout p') (bdec b1') /\
    Forall2 (turned_channel (nsteps p)) (bdec b1) (bdec b1').
Proof. exact (fun HA HT => decompose_turned p p' HA HT b b' data data' den den'). Qed.
Print Assumptions C122_decompose.

(** Compose of turned subbands, whatever their values, gives turned pictures,
    at every scale. *)
Theorem C122_compose p p' (b b' : buffer R) sf :
  accepted p -> turned_params p p' ->
  bpar b = p -> bpar b' = p' -> Z.of_nat (length (bdec b)) = signum p ->
  Forall (has_layout p) (bdec b) -> Forall (has_layout p') (bdec b') ->
  Forall2 (turned_channel (nsteps p)) (bdec b) (bdec b') -> (0 <= sf <= steps p)%Z ->
  exists out out', compose b sf = Ok (true, out) /\ compose b' sf = Ok (true, out') /\ Forall2 transposed out out'.
Proof. exact (fun HA HT => compose_turned p p' HA HT b b' sf). Qed.
Print Assumptions C122_compose.

(** Thresholding does not care which way the picture lies. *)
Theorem C122_denoisers : turn_denoisers null_denoiser null_denoiser /\
  forall (M : Mag R) a b, turn_denoisers (@threshold_denoiser R exactR M a b) (@threshold_denoiser R exactR M a b).
Proof. exact (conj null_turn threshold_turn). Qed.
Print Assumptions C122_denoisers.

(** a 7 x 5 picture and the turned 5 x 7 one, one step of DB1 *)
Definition lying : params := Params [7; 5]%Z 1 1 1.
Definition standing : params := Params [5; 7]%Z 1 1 1.
Example C122_params : turned_params lying standing /\ accepted lying.
Proof.
  split; [exists 7%Z, 5%Z; split; reflexivity|].
  unfold accepted, lying, params_rep, legal, u64, i32; cbn [shape signum steps wtype length].
  repeat split; auto; repeat constructor; lia.
Qed.
Example C122_buffers : (exists b : buffer R, reachable lying b) /\ exists b : buffer R, reachable standing b.
Proof. split; eexists; apply reach_new; vm_compute; reflexivity. Qed.
(** a picture of two rows *)
Example C122_transposed : transposed (Mat 2 3 [1; 2; 3; 4; 5; 6])%R (Mat 3 2 [1; 4; 2; 5; 3; 6])%R.
Proof.
  unfold transposed, mwf, at_. cbn [rows cols elts]. split; [reflexivity|]. split; [reflexivity|].
  split; [reflexivity|]. split; [reflexivity|]. intros i j Hi Hj.
  destruct i as [|[|i]]; [| |lia]; (destruct j as [|[|[|j]]]; [| | |lia]); reflexivity.
Qed.
(** the first two detail subbands really trade places *)
Example C122_not_turned : ~ turned_channel 1
  [Mat 1 1 [5]; Mat 1 1 [3]; Mat 1 1 [0]; Mat 1 1 [2]]%R
  [Mat 1 1 [5]; Mat 1 1 [3]; Mat 1 1 [0]; Mat 1 1 [2]]%R.
Proof.
  intros (_ & _ & H & _). specialize (H 0 (Mat 1 1 [5%R]) (Mat 1 1 [3%R]) ltac:(lia) eq_refl eq_refl).
  destruct H as (_ & _ & _ & _ & H). specialize (H 0 0 ltac:(cbn; lia) ltac:(cbn; lia)). cbn in H. lra.
Qed.
Example C122_turned_yes : turned_channel 1
  [Mat 1 2 [0; 5]; Mat 1 2 [-1; 3]; Mat 1 2 [0; 0]; Mat 1 2 [2; 7]]%R
  [Mat 2 1 [-1; 3]; Mat 2 1 [0; 5]; Mat 2 1 [0; 0]; Mat 2 1 [2; 7]]%R.
Proof.
  assert (G : forall x y, transposed (Mat 1 2 [x; y]) (Mat 2 1 [x; y])).
  { intros x y. unfold transposed, mwf, at_. cbn [rows cols elts]. split; [reflexivity|]. split; [reflexivity|].
    split; [reflexivity|]. split; [reflexivity|]. intros i j Hi Hj.
    destruct i as [|i]; [|lia]. destruct j as [|[|j]]; [| |lia]; reflexivity. }
  split; [reflexivity|]. split; [reflexivity|].
  split; [|split; [|split]]; intros; repeat match goal with H : _ < 1 |- _ => apply Nat.lt_1_r in H; subst end;
    cbn [nth_error Nat.mul Nat.add] in *; repeat match goal with H : Some _ = Some _ |- _ => injection H as <- end; apply G.
Qed.
