(** * T_Ring: properties C123 and C124: signals moved in a ring, mirrored
    signals. *)
Require Import List Bool Arith ZArith Reals Lra Lia.
Require Import Verif.M_Base Verif.M_Params Verif.M_Buffer Verif.M_Real.
Require Import Verif.S_Params Verif.S_Buffer Verif.S_Exact Verif.S_Ring Verif.P_Ring2 Verif.P_Ring3.
Import ListNotations.
Open Scope nat_scope.
Local Existing Instance exactR.

(** ** C123: a signal moved round by a multiple of 2^steps, for every wavelet.
    Decompose: the subbands move along, *)
Theorem C123_decompose p u v (b b' : buffer R) data data' :
  accepted p -> unpadded p -> reachable p b -> reachable p b' ->
  (1 <= signum p)%Z -> Z.of_nat (length data) = signum p -> Forall (shaped p) data ->
  Forall2 (rotated (2 ^ nsteps p * u) (2 ^ nsteps p * v)) data data' ->
  exists b1 b1', decompose b data null_denoiser = Ok (true, b1) /\ decompose b' data' null_denoiser = Ok (true, b1') /\
    bpar b1 = p /\ bpar b1' = p /\ Forall (has_layout p) (bdec b1) /\ Forall (has_layout p) (bdec b1') /\
    Forall2 (rotated_channel p u v) (bdec b1) (bdec b1').
Proof. exact (fun HA HU => decompose_rotated p HA HU u v b b' data data'). Qed.
Print Assumptions C123_decompose.
(** and Compose of subbands that moved along, whatever they hold, gives
    signals that moved, at every scale. *)
Theorem C123_compose p u v (b b' : buffer R) sf :
  accepted p -> unpadded p -> bpar b = p -> bpar b' = p -> Z.of_nat (length (bdec b)) = signum p ->
  Forall (has_layout p) (bdec b) -> Forall (has_layout p) (bdec b') ->
  Forall2 (rotated_channel p u v) (bdec b) (bdec b') -> (0 <= sf <= steps p)%Z ->
  exists out out', compose b sf = Ok (true, out) /\ compose b' sf = Ok (true, out') /\
    Forall2 (rotated (2 ^ (nsteps p - Z.to_nat sf) * u) (2 ^ (nsteps p - Z.to_nat sf) * v)) out out'.
Proof. exact (fun HA HU => compose_rotated p HA HU u v b b' sf). Qed.
Print Assumptions C123_compose.

(** One-dimensional signals: not a bit changes, whatever the arithmetic (the
    sums are taken over the same samples in the same order), so also for the
    floats of the code, infinities and NaNs included. *)
Theorem C123_any_decompose (T : Type) (A : Arith T) p u (b b' : buffer T) data data' :
  accepted p -> unpadded p -> dimension p = 1 -> reachable p b -> reachable p b' ->
  (1 <= signum p)%Z -> Z.of_nat (length data) = signum p -> Forall (shaped p) data ->
  Forall2 (rolled (2 ^ nsteps p * u)) data data' ->
  exists b1 b1', decompose b data null_denoiser = Ok (true, b1) /\ decompose b' data' null_denoiser = Ok (true, b1') /\
    bpar b1 = p /\ bpar b1' = p /\ Forall (has_layout p) (bdec b1) /\ Forall (has_layout p) (bdec b1') /\
    Forall2 (rolled_channel p u) (bdec b1) (bdec b1').
Proof. exact (fun HA HU D => decompose_rolled p HA HU D u b b' data data'). Qed.
Print Assumptions C123_any_decompose.
Theorem C123_any_compose (T : Type) (A : Arith T) p u (b b' : buffer T) sf :
  accepted p -> unpadded p -> dimension p = 1 -> bpar b = p -> bpar b' = p -> Z.of_nat (length (bdec b)) = signum p ->
  Forall (has_layout p) (bdec b) -> Forall (has_layout p) (bdec b') ->
  Forall2 (rolled_channel p u) (bdec b) (bdec b') -> (0 <= sf <= steps p)%Z ->
  exists out out', compose b sf = Ok (true, out) /\ compose b' sf = Ok (true, out') /\
    Forall2 (rolled (2 ^ (nsteps p - Z.to_nat sf) * u)) out out'.
Proof. exact (fun HA HU D => compose_rolled p HA HU D u b b' sf). Qed.
Print Assumptions C123_any_compose.

(** ** C124: mirrored signals, DB1. *)
Theorem C124_decompose p up_down (b b' : buffer R) data data' :
  accepted p -> unpadded p -> wtype p = 1%Z -> reachable p b -> reachable p b' ->
  (1 <= signum p)%Z -> Z.of_nat (length data) = signum p -> Forall (shaped p) data ->
  Forall2 (mirrored up_down 1) data data' ->
  exists b1 b1', decompose b data null_denoiser = Ok (true, b1) /\ decompose b' data' null_denoiser = Ok (true, b1') /\
    bpar b1 = p /\ bpar b1' = p /\ Forall (has_layout p) (bdec b1) /\ Forall (has_layout p) (bdec b1') /\
    Forall2 (mirrored_channel p up_down) (bdec b1) (bdec b1').
Proof. exact (fun HA HU T1 => decompose_mirrored p HA HU T1 up_down b b' data data'). Qed.
Print Assumptions C124_decompose.
Theorem C124_compose p up_down (b b' : buffer R) sf :
  accepted p -> unpadded p -> wtype p = 1%Z -> bpar b = p -> bpar b' = p -> Z.of_nat (length (bdec b)) = signum p ->
  Forall (has_layout p) (bdec b) -> Forall (has_layout p) (bdec b') ->
  Forall2 (mirrored_channel p up_down) (bdec b) (bdec b') -> (0 <= sf <= steps p)%Z ->
  exists out out', compose b sf = Ok (true, out) /\ compose b' sf = Ok (true, out') /\
    Forall2 (mirrored up_down 1) out out'.
Proof. exact (fun HA HU T1 => compose_mirrored p HA HU T1 up_down b b' sf). Qed.
Print Assumptions C124_compose.

(** 32 x 24 pictures, two steps of DB3, and DB1 *)
Definition db3 : params := Params [32; 24]%Z 1 2 3.
Definition db1 : params := Params [8; 4]%Z 1 2 1.
Example C123_params : accepted db3 /\ unpadded db3 /\ accepted db1 /\ unpadded db1.
Proof.
  assert (forall t w h, (1 <= t <= 3)%Z -> (4 * (2 * t - 1) <= w < 100)%Z -> (4 * (2 * t - 1) <= h < 100)%Z -> (2 * t <= w)%Z -> (2 * t <= h)%Z ->
    accepted (Params [w; h] 1 2 t)) as H.
  { intros t w h Ht Hw Hh H1 H2. unfold accepted, params_rep, legal, u64, i32; cbn [shape signum steps wtype length].
    destruct (Z.eqb_spec t 0); [lia|]. change (2 ^ 2)%Z with 4%Z.
    repeat split; auto; repeat constructor; lia. }
  split; [apply H; lia|]. split; [split; reflexivity|]. split; [apply H; lia|]. split; reflexivity.
Qed.
Example C123_buffers : (exists b : buffer R, reachable db3 b) /\ exists b : buffer R, reachable db1 b.
Proof. split; eexists; apply reach_new; vm_compute; reflexivity. Qed.
(** eight samples moved by four; reversed *)
Example C123_rotated : rotated (2 ^ 2 * 1) 0 (Mat 8 1 [1; 2; 3; 4; 5; 6; 7; 8])%R (Mat 8 1 [5; 6; 7; 8; 1; 2; 3; 4])%R.
Proof.
  split; [repeat split; reflexivity|]. cbn [rows cols]. intros i j Hi Hj. replace j with 0 by lia.
  do 8 (destruct i as [|i]; [reflexivity|]). lia.
Qed.
Example C123_channel : rotated_channel (Params [8]%Z 1 1 1) 1 0
  [Mat 4 1 [1; 2; 3; 4]; Mat 4 1 [5; 6; 7; 8]]%R [Mat 4 1 [4; 1; 2; 3]; Mat 4 1 [8; 5; 6; 7]]%R.
Proof.
  assert (G : forall x y z w, rotated 1 0 (Mat 4 1 [x; y; z; w]) (Mat 4 1 [w; x; y; z])).
  { intros x y z w. split; [repeat split; reflexivity|]. cbn [rows cols]. intros i j Hi Hj. replace j with 0 by lia.
    do 4 (destruct i as [|i]; [reflexivity|]). lia. }
  split.
  - intros s i m m' Hs Hi. change (nsteps _) with 1 in *. change (bands _) with 1 in *.
    replace s with 0 by lia. replace i with 0 by lia. cbn [nth_error Nat.mul Nat.add]. intros H1 H2.
    injection H1 as <-. injection H2 as <-. apply G.
  - change (nsteps _) with 1. change (bands _) with 1. cbn [nth_error Nat.mul Nat.add]. intros m m' H1 H2.
    injection H1 as <-. injection H2 as <-. apply G.
Qed.
Example C124_channel : mirrored_channel (Params [8]%Z 1 1 1) true
  [Mat 4 1 [1; 2; 3; 4]; Mat 4 1 [5; 6; 7; 8]]%R [Mat 4 1 [-4; -3; -2; -1]; Mat 4 1 [8; 7; 6; 5]]%R.
Proof.
  assert (G : forall e x y z w, mirrored true e (Mat 4 1 [x; y; z; w]) (Mat 4 1 [e * w; e * z; e * y; e * x])%R).
  { intros e x y z w. split; [repeat split; reflexivity|]. cbn [rows cols]. intros i j Hi Hj. replace j with 0 by lia.
    do 4 (destruct i as [|i]; [reflexivity|]). lia. }
  split.
  - intros s i m m' Hs Hi. change (nsteps _) with 1 in *. change (bands _) with 1 in *.
    replace s with 0 by lia. replace i with 0 by lia. cbn [nth_error Nat.mul Nat.add]. intros H1 H2.
    injection H1 as <-. injection H2 as <-.
    replace (Mat 4 1 [-4; -3; -2; -1])%R with (Mat 4 1 [-1 * 4; -1 * 3; -1 * 2; -1 * 1])%R by (repeat f_equal; ring). apply G.
  - change (nsteps _) with 1. change (bands _) with 1. cbn [nth_error Nat.mul Nat.add]. intros m m' H1 H2.
    injection H1 as <-. injection H2 as <-.
    replace (Mat 4 1 [8; 7; 6; 5])%R with (Mat 4 1 [1 * 8; 1 * 7; 1 * 6; 1 * 5])%R by (repeat f_equal; ring). apply G.
Qed.

Example C123_rolled : rolled (2 ^ 2 * 1) (Mat 8 1 [1; 2; 3; 4; 5; 6; 7; 8]%Z) (Mat 8 1 [5; 6; 7; 8; 1; 2; 3; 4]%Z).
Proof.
  repeat (split; [reflexivity|]). cbn [rows]. intros i Hi. do 8 (destruct i as [|i]; [reflexivity|]). lia.
Qed.
Example C123_rolled_channel : rolled_channel (Params [8]%Z 1 1 1) 1
  [Mat 4 1 [1; 2; 3; 4]; Mat 4 1 [5; 6; 7; 8]]%Z [Mat 4 1 [4; 1; 2; 3]; Mat 4 1 [8; 5; 6; 7]]%Z.
Proof.
  assert (G : forall x y z w : Z, rolled 1 (Mat 4 1 [x; y; z; w]) (Mat 4 1 [w; x; y; z])).
  { intros x y z w. repeat (split; [reflexivity|]). cbn [rows]. intros i Hi. do 4 (destruct i as [|i]; [reflexivity|]). lia. }
  split.
  - intros s m m' Hs. change (nsteps _) with 1 in *. replace s with 0 by lia. cbn [nth_error]. intros H1 H2.
    injection H1 as <-. injection H2 as <-. apply G.
  - change (nsteps _) with 1. cbn [nth_error]. intros m m' H1 H2. injection H1 as <-. injection H2 as <-. apply G.
Qed.
