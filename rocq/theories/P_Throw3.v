(** Histories of a buffer with Decompose calls that an exception left. *)
Require Import List Bool Arith ZArith Lia.
Require Import Verif.M_Base Verif.M_Params Verif.M_Wavelet Verif.M_Buffer Verif.M_View Verif.M_Throw.
Require Import Verif.S_Params Verif.S_Buffer Verif.S_Throw.
Require Import Verif.P_Base Verif.P_Wavelet Verif.P_Buffer Verif.P_Impl Verif.P_Api Verif.P_Api2 Verif.P_Throw Verif.P_Throw2.
Import ListNotations.
Open Scope nat_scope.

Section T.
Context {T : Type} {A : Arith T}.

Lemma decompose_e_weak p (b b' : buffer T) data den mem o :
  accepted p -> weak_inv p b -> (1 <= signum p)%Z -> Z.of_nat (length data) = signum p -> Forall (shaped p) data ->
  decompose_e b data den mem = Ok (o, b') -> weak_inv p b'.
Proof.
  intros HA HW Hs HL HS H. set (b0 := Buffer p (map (dec_of p null_denoiser) data)).
  destruct (first_failing (written p den mem b0) (length data * per_write p)) as (k & Hk & H1 & H2).
  destruct (throw_exact_w p b b0 data den mem k HA HW Hs HL HS eq_refl Hk H1 H2) as (x & E & L).
  rewrite E in H. inversion H; subst x. eapply weak_left; eauto.
Qed.

Lemma view_e_weak p v (b b' : buffer T) data den mem o :
  accepted p -> weak_inv p b -> in_range v p -> vmutable v = true ->
  (1 <= vcount v)%Z -> Z.of_nat (length data) = vcount v -> Forall (shaped p) data ->
  view_decompose_e v b data den mem = Ok (o, b') -> weak_inv p b'.
Proof.
  intros HA HW HV Hmut Hc HL HS H. pose proof HW as (E & HL2 & Hlen). pose proof HV as (V1 & V2 & V3 & V4).
  unfold view_decompose_e in H. rewrite check_range_in in H by (rewrite E; auto). cbn [bind negb] in H.
  rewrite guard_true in H by auto. cbn [bind] in H. rewrite (odd_in v p) in H by auto. rewrite E in H.
  replace (Z.to_nat (vcount v)) with (length data) in H by lia.
  set (start := Z.to_nat (vstart v)) in *.
  set (b0 := Buffer p (repeat [] start ++ map (dec_of p null_denoiser) data)).
  destruct (first_failing (written_from p den mem b0 start) (length data * per_write p)) as (k & Hk & H1 & H2).
  destruct (throw_impl p (bdec b) b0 data den mem start k HA) as (dec' & Ed & L1 & L2 & L3 & _); auto.
  - lia.
  - assert (Hr : start + length data <= length (bdec b)) by lia. exact Hr.
  - intros c d Hd. unfold b0. cbn [bdec]. rewrite nth_error_app2 by (rewrite repeat_length; lia).
    rewrite repeat_length. replace (start + c - start) with c by lia. rewrite nth_error_map, Hd. reflexivity.
  - rewrite Ed in H. cbn [bind fst snd] in H. inversion H; subst b'. cbn [bpar bdec] in *.
    split; [reflexivity|]. split; [cbn [bdec]; exact (eq_trans (f_equal Z.of_nat L2) HL2)|].
    intros ch Hch. cbn [bdec] in Hch. rewrite L3 by exact Hch. symmetry. apply size_write; auto.
Qed.

Lemma same_decompose p (b1 b2 : buffer T) data den :
  accepted p -> weak_inv p b1 -> weak_inv p b2 -> keeps_shape den ->
  (1 <= signum p)%Z -> Z.of_nat (length data) = signum p -> Forall (shaped p) data ->
  exists b', decompose b1 data den = Ok (true, b') /\ decompose b2 data den = Ok (true, b').
Proof.
  intros HA (W1 & W2 & W3) (V1 & V2 & V3) HK Hs HL HS. exists (Buffer p (map (dec_of p den) data)).
  split; apply decompose_ok; auto; intros; apply HK.
Qed.

Lemma history_weak p (b : buffer T) : accepted p -> history_e p b -> weak_inv p b.
Proof.
  intros HA H. induction H.
  - apply reachable_weak; auto.
  - eapply decompose_e_weak; eauto. lia.
  - eapply view_e_weak; eauto.
Qed.
End T.
