(** * T_Throw: property C130, an exception in the middle of a Decompose, thrown
    by the denoiser or because memory ran out: what is in the buffer
    afterwards, at every crash point. *)
Require Import List Bool Arith ZArith Lia Reals Lra.
Require Import Verif.M_Float Verif.M_Binary32.
Require Import Verif.M_Base Verif.M_Params Verif.M_Wavelet Verif.M_Buffer Verif.M_Real Verif.M_View Verif.M_Throw.
Require Import Verif.S_Params Verif.S_Buffer Verif.S_Throw.
Require Import Verif.P_Params Verif.P_Api2 Verif.P_Impl Verif.P_Exact Verif.P_Throw2 Verif.P_Throw3.
Import ListNotations.
Open Scope nat_scope.

(** ** The exact state of the buffer after k writes, when the exception comes
    instead of the next one, and after a Decompose that does them all *)
Theorem C130_exact (T : Type) (A : Arith T) p (b b0 : buffer T) data den mem k :
  accepted p -> reachable p b -> (1 <= signum p)%Z -> Z.of_nat (length data) = signum p -> Forall (shaped p) data ->
  decompose b data null_denoiser = Ok (true, b0) ->
  k <= length data * per_write p ->
  (forall j, j < k -> written p den mem b0 j <> None) ->
  (k < length data * per_write p -> written p den mem b0 k = None) ->
  exists b', decompose_e b data den mem = Ok (if k <? length data * per_write p then Exception else Answer true, b') /\
    bpar b' = p /\ length (bdec b') = length (bdec b) /\
    (forall ch, In ch (bdec b') -> length ch = per_write p) /\
    forall c i, c < length (bdec b) -> i < per_write p -> sub_at b' c i =
      if c * per_write p + i <? k then written p den mem b0 (c * per_write p + i) else sub_at b c i.
Proof. exact (throw_exact p b b0 data den mem k). Qed.
Print Assumptions C130_exact.

(** ** Every denoiser, and memory running out at any write, falls under it *)
Theorem C130_every_denoiser (T : Type) (A : Arith T) p (b : buffer T) data den mem :
  accepted p -> reachable p b -> (1 <= signum p)%Z -> Z.of_nat (length data) = signum p -> Forall (shaped p) data ->
  exists b0 k o b', decompose b data null_denoiser = Ok (true, b0) /\
    k <= length data * per_write p /\
    (forall j, j < k -> written p den mem b0 j <> None) /\
    (k < length data * per_write p -> written p den mem b0 k = None) /\
    decompose_e b data den mem = Ok (o, b') /\ (o = Exception <-> k < length data * per_write p) /\ o <> Answer false.
Proof.
  intros HA HR Hs HL HS. destruct (throw_any p b data den mem HA HR Hs HL HS) as (b0 & k & b' & H0 & Hk & H1 & H2 & E & _).
  exists b0, k. destruct (Nat.ltb_spec k (length data * per_write p)) as [Hlt|Hge].
  - exists Exception, b'. repeat (split; [assumption|]). split; [tauto|discriminate].
  - exists (Answer true), b'. repeat (split; [assumption|]). split; [|discriminate].
    split; [discriminate|lia].
Qed.
Print Assumptions C130_every_denoiser.

(** ** A signal Decompose refuses is refused without any call of Denoise *)
Theorem C130_refused (T : Type) (A : Arith T) (b b0 : buffer T) data den mem :
  decompose b data null_denoiser = Ok (false, b0) -> decompose_e b data den mem = Ok (Answer false, b) /\ b0 = b.
Proof. exact (throw_refused b b0 data den mem). Qed.
Print Assumptions C130_refused.
Example C130_refused_case : exists b b0 : buffer R, decompose b [Mat 3 1 [0; 0; 0]%R] null_denoiser = Ok (false, b0).
Proof. exists (Buffer (Params [4]%Z 1 1 1) []). eexists. reflexivity. Qed.

(** ** A denoiser that never throws, and enough memory: the model agrees with [decompose] *)
Theorem C130_never (T : Type) (A : Arith T) p (b : buffer T) data den :
  accepted p -> reachable p b -> keeps_shape den ->
  (1 <= signum p)%Z -> Z.of_nat (length data) = signum p -> Forall (shaped p) data ->
  exists b1, decompose b data den = Ok (true, b1) /\ decompose_e b data (never_throws den) enough = Ok (Answer true, b1).
Proof. exact (throw_never p b data den). Qed.
Print Assumptions C130_never.

(** ** Through a view: the channels of the view as above, the others untouched *)
Theorem C130_view (T : Type) (A : Arith T) p v (b b0 : buffer T) data den mem k :
  accepted p -> reachable p b -> in_range v p -> vmutable v = true ->
  (1 <= vcount v)%Z -> Z.of_nat (length data) = vcount v -> Forall (shaped p) data ->
  view_decompose v b data null_denoiser = Ok (true, b0) ->
  k <= length data * per_write p ->
  let start := Z.to_nat (vstart v) in
  (forall j, j < k -> written_from p den mem b0 start j <> None) ->
  (k < length data * per_write p -> written_from p den mem b0 start k = None) ->
  exists b', view_decompose_e v b data den mem = Ok (if k <? length data * per_write p then Exception else Answer true, b') /\
    bpar b' = p /\ length (bdec b') = length (bdec b) /\
    (forall ch, In ch (bdec b') -> length ch = per_write p) /\
    (forall c, c < start \/ start + length data <= c -> nth_error (bdec b') c = nth_error (bdec b) c) /\
    forall c i, c < length data -> i < per_write p -> sub_at b' (start + c) i =
      if c * per_write p + i <? k then written_from p den mem b0 start (c * per_write p + i) else sub_at b (start + c) i.
Proof. exact (throw_view p v b b0 data den mem k). Qed.
Print Assumptions C130_view.
Theorem C130_view_refused (T : Type) (A : Arith T) v (b b0 : buffer T) data den mem :
  view_decompose v b data null_denoiser = Ok (false, b0) -> view_decompose_e v b data den mem = Ok (Answer false, b) /\ b0 = b.
Proof. exact (view_refused v b b0 data den mem). Qed.
Print Assumptions C130_view_refused.
(** Decompose of a vector is Decompose through a view of channel 0 *)
Theorem C130_vector (T : Type) (A : Arith T) (b : buffer T) data den mem : (1 <= signum (bpar b) < 2 ^ 31)%Z ->
  decompose1_e b data den mem = view_decompose_e (View 0 1 true) b [Mat (length data) 1 data] den mem.
Proof. exact (one_as_view b data den mem). Qed.
Print Assumptions C130_vector.

(** ** The buffer can be used again: the next Decompose leaves no trace *)
Theorem C130_retry (T : Type) (A : Arith T) p (b b' : buffer T) data den mem o data2 den2 :
  accepted p -> reachable p b -> (1 <= signum p)%Z -> Z.of_nat (length data) = signum p -> Forall (shaped p) data ->
  decompose_e b data den mem = Ok (o, b') ->
  keeps_shape den2 -> Z.of_nat (length data2) = signum p -> Forall (shaped p) data2 ->
  exists b2, decompose b data2 den2 = Ok (true, b2) /\ decompose b' data2 den2 = Ok (true, b2).
Proof. exact (throw_retry p b b' data den mem o data2 den2). Qed.
Print Assumptions C130_retry.

(** ** nor do any number of exceptions before it: after any two histories with
    the same parameters a Decompose has the same result *)
Theorem C130_history (T : Type) (A : Arith T) p (b1 b2 : buffer T) data den :
  accepted p -> history_e p b1 -> history_e p b2 -> keeps_shape den ->
  (1 <= signum p)%Z -> Z.of_nat (length data) = signum p -> Forall (shaped p) data ->
  exists b', decompose b1 data den = Ok (true, b') /\ decompose b2 data den = Ok (true, b').
Proof.
  intros HA H1 H2. exact (same_decompose p b1 b2 data den HA (history_weak p b1 HA H1) (history_weak p b2 HA H2)).
Qed.
Print Assumptions C130_history.

(** ** Composing a buffer that held a signal when the exception came: channels
    before the failing one are those of the completed Decompose,
    channels after it are the old ones *)
Theorem C130_composed (T : Type) (A : Arith T) p (b b0 b' b1 : buffer T) data den mem den1 mem1 k sf :
  accepted p -> reachable p b -> (1 <= signum p)%Z -> Z.of_nat (length data) = signum p -> Forall (shaped p) data ->
  decompose b data null_denoiser = Ok (true, b0) -> keeps_shape_e den -> keeps_shape_e den1 ->
  Forall (has_layout p) (bdec b) ->
  k < length data * per_write p ->
  (forall j, j < k -> written p den mem b0 j <> None) -> written p den mem b0 k = None ->
  (forall j, j < k -> written p den1 mem1 b0 j = written p den mem b0 j) ->
  decompose_e b data den mem = Ok (Exception, b') -> decompose_e b data den1 mem1 = Ok (Answer true, b1) ->
  (0 <= sf <= steps p)%Z ->
  exists out out' out1, compose b sf = Ok (true, out) /\ compose b' sf = Ok (true, out') /\ compose b1 sf = Ok (true, out1) /\
    length out' = length data /\
    forall c, c < length data ->
      (k <= c * per_write p -> nth_error out' c = nth_error out c) /\
      ((c + 1) * per_write p <= k -> nth_error out' c = nth_error out1 c).
Proof. exact (throw_composed p b b0 b' b1 data den mem den1 mem1 k sf). Qed.
Print Assumptions C130_composed.

(** ** All or nothing does not hold: two channels, the second Denoise call
    throws; the buffer then composes to the new first channel beside the old
    second one, neither the old signal nor the new one *)
Definition p2 : params := Params [4]%Z 2 1 1.
Definition zeros : mat R := Mat 4 1 [0; 0; 0; 0]%R.
Definition ones : mat R := Mat 4 1 [1; 1; 1; 1]%R.
Definition fails_second : fallible R := Fallible (fun n l _ => if n <? 1 then Some l else None) (fun _ m _ => Some m).

Example p2_accepted : accepted p2.
Proof.
  unfold accepted, p2, params_rep, legal, u64, i32; cbn [shape signum steps wtype length].
  repeat split; auto; repeat constructor; lia.
Qed.
Lemma shaped2 (m : mat R) : m = zeros \/ m = ones -> shaped p2 m.
Proof. intros [-> | ->]; repeat split. Qed.

Theorem C130_all_or_nothing_refuted : exists (b b' : buffer R) old new den,
  reachable p2 b /\ compose b 0 = Ok (true, old) /\ Forall (shaped p2) new /\ keeps_shape_e den /\
  decompose_e b new den enough = Ok (Exception, b') /\
  exists out, compose b' 0 = Ok (true, out) /\ out = [ones; zeros] /\ old = [zeros; zeros] /\ new = [ones; ones] /\
    out <> old /\ out <> new.
Proof.
  pose proof p2_accepted as HA.
  assert (HR : exists bf : buffer R, reachable p2 bf).
  { eexists; apply reach_new; apply P_Params.new_buffer_legal; [apply HA|cbn; lia|apply HA]. }
  destruct HR as (bf & HR).
  assert (Hz : Forall (shaped p2) [zeros; zeros]) by (repeat constructor).
  assert (Ho : Forall (shaped p2) [ones; ones]) by (repeat constructor).
  destruct (perfect_reconstruction p2 HA bf [zeros; zeros] eq_refl HR ltac:(cbn; lia) eq_refl Hz) as (b & Eb & Cb).
  assert (HRb : reachable p2 b).
  { eapply reach_decompose; [exact HR| |apply null_shape|exact Eb]. repeat constructor. }
  destruct (perfect_reconstruction p2 HA b [ones; ones] eq_refl HRb ltac:(cbn; lia) eq_refl Ho) as (b0 & E0 & C0).
  assert (HN : per_write p2 = 2) by reflexivity.
  assert (EB : b0 = Buffer p2 (map (dec_of p2 null_denoiser) [ones; ones])).
  { apply (null_result p2 b b0 [ones; ones] HA (reachable_weak p2 b HA HRb)); [cbn; lia|reflexivity|exact Ho|exact E0]. }
  assert (R0 : forall j, j < 2 -> written p2 fails_second enough b0 j = written p2 (never_throws null_denoiser) enough b0 j /\
               written p2 fails_second enough b0 j <> None).
  { intros j Hj. destruct (sub_some p2 [ones; ones] 0 j HA ltac:(cbn; lia) ltac:(lia)) as (d & Ed). rewrite <- EB in Ed.
    unfold written, written_from. rewrite HN, Nat.add_0_l, Nat.div_small, Nat.mod_small, Ed by lia.
    change (per_channel p2) with 1. destruct (Nat.ltb_spec j 1); [|split; [reflexivity|discriminate]].
    assert (j = 0) by lia. subst j.
    unfold answer, fails_second, never_throws. cbn [f1 f2 Nat.ltb Nat.leb Nat.add Nat.mul]. change (is_1d p2) with true. cbn [null_denoiser den1].
    rewrite Nat.eqb_refl. split; [reflexivity|discriminate]. }
  assert (R1 : written p2 fails_second enough b0 2 = None).
  { unfold written, written_from. destruct (sub_at _ _ _); [|reflexivity]. reflexivity. }
  assert (HK : keeps_shape_e fails_second).
  { split.
    - intros n l s v H. unfold fails_second in H. cbn [f1] in H. destruct (n <? 1); [|discriminate]. inversion H; reflexivity.
    - intros n m s v W H. inversion H; subst v. repeat split; auto. }
  assert (HK1 : keeps_shape_e (never_throws (@null_denoiser R))).
  { split.
    - intros n l s v H. inversion H; reflexivity.
    - intros n m s v W H. inversion H; subst v. repeat split; auto. }
  destruct (throw_exact p2 b b0 [ones; ones] fails_second enough 2 HA HRb ltac:(cbn; lia) eq_refl Ho E0) as (b' & E' & _).
  { cbn; lia. }
  { intros j Hj. apply R0. exact Hj. }
  { intros _. exact R1. }
  change (2 <? length [ones; ones] * per_write p2) with true in E'. cbv iota in E'.
  destruct (throw_never p2 b [ones; ones] null_denoiser HA HRb null_shape ltac:(cbn; lia) eq_refl Ho) as (b1 & Eb1 & E1).
  rewrite E0 in Eb1. inversion Eb1; subst b1. clear Eb1.
  assert (HLay : Forall (has_layout p2) (bdec b)).
  { rewrite (null_result p2 bf b [zeros; zeros] HA (reachable_weak p2 bf HA HR) ltac:(cbn; lia) eq_refl Hz Eb).
    cbn [bdec map]. pose proof (P_Api.dec_of_layout p2 HA null_denoiser zeros null_shape) as HX. constructor; [exact HX|constructor; [exact HX|constructor]]. }
  destruct (throw_composed p2 b b0 b' b0 [ones; ones] fails_second enough (never_throws null_denoiser) enough 2 0 HA HRb ltac:(cbn; lia) eq_refl Ho
              E0 HK HK1 HLay) as (out & out' & out1 & Co & Co' & Co1 & HLo & Hc).
  { cbn; lia. }
  { intros j Hj. apply R0. exact Hj. }
  { exact R1. }
  { intros j Hj. symmetry. apply R0. exact Hj. }
  { exact E'. }
  { exact E1. }
  { cbn; lia. }
  rewrite Cb in Co. inversion Co; subst out. rewrite C0 in Co1. inversion Co1; subst out1.
  destruct (Hc 0 ltac:(cbn; lia)) as (_ & H0). destruct (Hc 1 ltac:(cbn; lia)) as (H1 & _).
  specialize (H0 ltac:(cbn; lia)). specialize (H1 ltac:(cbn; lia)).
  destruct out' as [|x [|y [|z t]]]; try discriminate. cbn [nth_error] in H0, H1.
  inversion H0; subst x. inversion H1; subst y.
  exists b, b', [zeros; zeros], [ones; ones], fails_second.
  repeat (split; [assumption|]). exists [ones; zeros]. split; [exact Co'|]. split; [reflexivity|]. split; [reflexivity|]. split; [reflexivity|].
  split; intros H; inversion H; lra.
Qed.
Print Assumptions C130_all_or_nothing_refuted.

(** A fresh 4 x 4 buffer of two channels in binary32; the fifth Denoise call,
    for the second subband of the second channel, throws: the rows of the
    subbands tell what was written *)
Definition p44 : params := Params [4; 4]%Z 2 1 1.
Definition img : mat f32 := Mat 4 4 (map (fun i => f32_of_int (Z.of_nat i)) (seq 0 16)).
Definition fails_fifth : fallible f32 := Fallible (fun _ l _ => Some l) (fun n m _ => if n =? 4 then None else Some m).
Example C130_case : accepted p44 /\ Forall (shaped p44) [img; img] /\
  match new_buffer p44 with
  | Ok b => match decompose_e b [img; img] fails_fifth enough with
            | Ok (Exception, b') => map (map rows) (bdec b')
            | _ => []
            end
  | _ => []
  end = [[2; 2; 2; 2]; [2; 0; 0; 0]].
Proof.
  split; [unfold accepted, p44, params_rep, legal, u64, i32; cbn [shape signum steps wtype length]; repeat split; auto; repeat constructor; lia|].
  split; [repeat constructor|]. vm_compute. reflexivity.
Qed.
(** the same through a view of the last two of three channels *)
Definition p344 : params := Params [4; 4]%Z 3 1 1.
Example C130_view_case : in_range (View 1 2 true) p344 /\
  match new_buffer p344 with
  | Ok b => match view_decompose_e (View 1 2 true) b [img; img] fails_fifth enough with
            | Ok (Exception, b') => map (map rows) (bdec b')
            | _ => []
            end
  | _ => []
  end = [[0; 0; 0; 0]; [2; 2; 2; 2]; [2; 0; 0; 0]].
Proof. split; [unfold in_range; cbn; lia|]. vm_compute. reflexivity. Qed.
(** memory running out when the approximation of the first channel is copied *)
Example C130_memory_case :
  match new_buffer p44 with
  | Ok b => match decompose_e b [img; img] (never_throws null_denoiser) (fun c => negb (c =? 0)) with
            | Ok (Exception, b') => map (map rows) (bdec b')
            | _ => []
            end
  | _ => []
  end = [[2; 2; 2; 0]; [0; 0; 0; 0]].
Proof. vm_compute. reflexivity. Qed.
