(** * T_Fresh: property C112, composing a buffer nothing was decomposed into *)
Require Import List Bool Arith ZArith Lia.
Require Import Verif.M_Base Verif.M_Params Verif.M_Buffer.
Require Import Verif.S_Params Verif.S_Buffer Verif.P_Fresh.
Import ListNotations.
Open Scope nat_scope.

(** 1D, a step to undo: Blaze's column() throws *)
Theorem C112_signal (T : Type) (A : Arith T) p (b : buffer T) sf :
  accepted p -> new_buffer p = Ok b -> (1 <= signum p)%Z -> is_1d p = true -> (0 <= sf < steps p)%Z ->
  compose b sf = Throw.
Proof.
  intros HA Eb Hs H1 Hsf. rewrite (fresh_compose p HA b sf Eb Hs) by lia.
  destruct (Z.ltb_spec sf (steps p)); [|lia]. rewrite H1. reflexivity.
Qed.
Print Assumptions C112_signal.
(** 2D, a step to undo: the empty subbands do not fit the transform matrices;
    an assertion is the only check *)
Theorem C112_picture (T : Type) (A : Arith T) p (b : buffer T) sf :
  accepted p -> new_buffer p = Ok b -> (1 <= signum p)%Z -> is_1d p = false -> (0 <= sf < steps p)%Z ->
  compose b sf = UB.
Proof.
  intros HA Eb Hs H1 Hsf. rewrite (fresh_compose p HA b sf Eb Hs) by lia.
  destruct (Z.ltb_spec sf (steps p)); [|lia]. rewrite H1. reflexivity.
Qed.
Print Assumptions C112_picture.
(** no step to undo: the empty approximation is cropped to the scaled shape;
    an assertion again, unless that is empty too *)
Theorem C112_no_step (T : Type) (A : Arith T) p (b : buffer T) sf n :
  accepted p -> new_buffer p = Ok b -> (1 <= signum p)%Z -> (0 <= sf)%Z -> (steps p <= sf)%Z ->
  In n (shape p) -> (2 ^ sf <= n)%Z -> compose b sf = UB.
Proof.
  intros HA Eb Hs H0 Hsf Hn Hb. rewrite (fresh_compose p HA b sf Eb Hs) by lia.
  destruct (Z.ltb_spec sf (steps p)); [lia|].
  assert (E : existsb (fun n => (1 <=? n / 2 ^ sf)%Z) (shape p) = true).
  { apply existsb_exists. exists n. split; [exact Hn|]. apply Z.leb_le. apply Z.div_le_lower_bound; [apply Z.pow_pos_nonneg; lia|lia]. }
  rewrite E, orb_true_r. reflexivity.
Qed.
Print Assumptions C112_no_step.
(** 1D: always, the empty approximation has no column *)
Theorem C112_signal_no_step (T : Type) (A : Arith T) p (b : buffer T) sf :
  accepted p -> new_buffer p = Ok b -> (1 <= signum p)%Z -> is_1d p = true -> (0 <= sf)%Z -> (steps p <= sf)%Z ->
  compose b sf = UB.
Proof.
  intros HA Eb Hs H1 H0 Hsf. rewrite (fresh_compose p HA b sf Eb Hs) by lia.
  destruct (Z.ltb_spec sf (steps p)); [lia|]. rewrite H1. reflexivity.
Qed.
Print Assumptions C112_signal_no_step.
Theorem C112_nothing (T : Type) (A : Arith T) p (b : buffer T) sf :
  accepted p -> new_buffer p = Ok b -> (1 <= signum p)%Z -> is_1d p = false -> (0 <= sf)%Z -> (steps p <= sf)%Z ->
  Forall (fun n => (n < 2 ^ sf)%Z) (shape p) ->
  exists out, compose b sf = Ok (true, out) /\ Z.of_nat (length out) = signum p /\ Forall (fun m => rows m = 0 /\ cols m = 0) out.
Proof.
  intros HA Eb Hs H1 H0 Hsf Hn. rewrite (fresh_compose p HA b sf Eb Hs) by lia.
  destruct (Z.ltb_spec sf (steps p)); [lia|]. rewrite H1.
  assert (E : existsb (fun n => (1 <=? n / 2 ^ sf)%Z) (shape p) = false).
  { destruct (existsb _ _) eqn:Q; [|reflexivity]. apply existsb_exists in Q as (n & Hin & Q). apply Z.leb_le in Q.
    rewrite Forall_forall in Hn. specialize (Hn n Hin). destruct HA as ((Hsh & _) & _). rewrite Forall_forall in Hsh. specialize (Hsh n Hin).
    unfold u64 in Hsh. rewrite Z.div_small in Q by lia. lia. }
  rewrite E. cbn [orb]. eexists. split; [reflexivity|]. rewrite repeat_length. split; [lia|].
  apply Forall_forall. intros m Hm. apply repeat_spec in Hm. subst m. split; reflexivity.
Qed.
Print Assumptions C112_nothing.
(** so Compose has no way to tell the caller: it never answers false *)
Theorem C112_refuted : exists p (b : buffer Z), accepted p /\ new_buffer p = Ok b /\ is_empty b = true /\
  forall A : Arith Z, (exists n, In n (shape p) /\ (1 <= n)%Z) /\ forall r, @compose Z A b 0 <> Ok r.
Proof.
  exists (Params [8; 6]%Z 2 1 1), (Buffer (Params [8; 6]%Z 2 1 1) (repeat (repeat mempty 4) 2)).
  assert (HA : accepted (Params [8; 6]%Z 2 1 1)).
  { unfold accepted, params_rep, legal, u64, i32; cbn [shape signum steps wtype length]. repeat split; auto; repeat constructor; lia. }
  split; [exact HA|]. split; [vm_compute; reflexivity|]. split; [reflexivity|]. intro A. split; [exists 8%Z; split; [left; reflexivity|lia]|].
  intro r. rewrite (C112_picture Z A (Params [8; 6]%Z 2 1 1)); try discriminate; auto; cbn; lia.
Qed.
Print Assumptions C112_refuted.
Example C112_cases : accepted (Params [9]%Z 1 1 2) /\ is_1d (Params [9]%Z 1 1 2) = true /\ accepted (Params [8; 6]%Z 2 1 1) /\
  accepted (Params [8; 6]%Z 1 0 0).
Proof.
  unfold accepted, params_rep, legal, u64, i32; cbn [shape signum steps wtype length is_1d]. repeat split; auto; repeat constructor; lia.
Qed.
