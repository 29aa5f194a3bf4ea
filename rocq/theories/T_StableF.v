(** * T_StableF: properties C86 and C87 with floats, C89 (how accurate the
    stored coefficients and the composed signal are) and C90 (energy of the
    stored coefficients). *)
Require Import List Bool Arith ZArith Reals Lra Lia.
Require Import Flocq.Core.Core Flocq.IEEE754.BinarySingleNaN.
Require Import Verif.M_Base Verif.M_Params Verif.M_Buffer Verif.M_Real Verif.M_Float Verif.M_Binary32 Verif.M_Denoise Verif.M_Mag32.
Require Import Verif.S_Params Verif.S_Buffer Verif.S_Exact Verif.S_Round Verif.S_Stable Verif.S_Denoise.
Require Import Verif.P_Api Verif.P_Round3 Verif.P_Float Verif.P_Binary32 Verif.P_Bin2 Verif.P_Stable2 Verif.P_Acc2 Verif.P_BinMove2 Verif.P_DenoiseF.
Import ListNotations.
Open Scope R_scope.

Local Ltac consts :=
  replace (/ 2 ^ 24) with u32 by (unfold u32; rewrite (pow_IZR 2 24); reflexivity);
  replace (/ 2 ^ 150) with eta32 by (unfold eta32; rewrite (pow_IZR 2 150); reflexivity).

(** ** C86 with floats: any finite channels that do not overflow *)
Theorem C86_binary32 p (b : buffer f32) data (chs : list (list (mat f32))) :
  accepted p -> reachable p b ->
  (1 <= signum p)%Z -> Z.of_nat (length data) = signum p -> Forall (shaped p) data ->
  Forall all_finite data -> Forall (fun m => padded_energy p (values m) <= 2 ^ 220) data ->
  length chs = length data -> Forall (has_layout p) chs -> Forall (Forall all_finite) chs ->
  Forall (fun ch => channel_energy (map values ch) <= 2 ^ 222) chs ->
  exists b0 out, decompose b data null_denoiser = Ok (true, b0) /\
    compose (Buffer p chs) 0 = Ok (true, out) /\ length out = length data /\
    forall c m ch0 ch o, nth_error data c = Some m -> nth_error (bdec b0) c = Some ch0 -> nth_error chs c = Some ch ->
      nth_error out c = Some o ->
      sized (drows p) (dcols p) o /\ all_finite o /\
      error p (values o) (values m) <=
        float_rel (/ 2 ^ 24) p * sqrt (padded_energy p (values m)) + underflow (/ 2 ^ 24) (/ 2 ^ 150) p
        + step_gain (/ 2 ^ 24) p ^ nsteps p * sqrt (distance2 (map values ch0) (map values ch)).
Proof. consts. exact (fun HA => moved_binary32 p HA b data chs). Qed.
Print Assumptions C86_binary32.

(** any denoiser that only keeps or zeroes: nothing overflows *)
Theorem C86_binary32_denoiser p (b : buffer f32) data den :
  accepted p -> reachable p b -> keeps_shape den -> keeps_or_zeroes den ->
  (1 <= signum p)%Z -> Z.of_nat (length data) = signum p -> Forall (shaped p) data ->
  Forall all_finite data -> Forall (fun m => padded_energy p (values m) <= 2 ^ 220) data ->
  exists b0 b1 out, decompose b data null_denoiser = Ok (true, b0) /\
    decompose b data den = Ok (true, b1) /\
    compose b1 0 = Ok (true, out) /\ length out = length data /\
    forall c m ch0 ch1 o, nth_error data c = Some m -> nth_error (bdec b0) c = Some ch0 -> nth_error (bdec b1) c = Some ch1 ->
      nth_error out c = Some o ->
      sized (drows p) (dcols p) o /\ all_finite o /\
      error p (values o) (values m) <=
        float_rel (/ 2 ^ 24) p * sqrt (padded_energy p (values m)) + underflow (/ 2 ^ 24) (/ 2 ^ 150) p
        + step_gain (/ 2 ^ 24) p ^ nsteps p * sqrt (distance2 (map values ch0) (map values ch1)).
Proof. consts. exact (fun HA => kept_binary32 p HA b data den). Qed.
Print Assumptions C86_binary32_denoiser.

(** both library denoisers are of this kind *)
Theorem C86_binary32_library :
  (forall a b : f32, keeps_shape (threshold_denoiser a b) /\ keeps_or_zeroes (threshold_denoiser a b)) /\
  (forall ne1 ne2 (level : f32),
    nth_element_on (fun x : f32 => is_nan x = false) ne1 -> nth_element_on (fun x : f32 => is_nan x = false) ne2 ->
    keeps_shape (simple_denoiser ne1 ne2 level) /\ keeps_or_zeroes (simple_denoiser ne1 ne2 level)).
Proof.
  split.
  - intros a b. split; [apply P_Denoise.threshold_keeps|apply threshold_kept].
  - intros ne1 ne2 level H1 H2. split; [apply simple_shape|apply simple_kept; auto].
Qed.
Print Assumptions C86_binary32_library.

(** thresholds up to T, as floats *)
Theorem C86_binary32_threshold p (b : buffer f32) data (ta tb : f32) T :
  accepted p -> reachable p b -> 0 <= T ->
  (forall s, (s < nsteps p)%nat -> is_finite (get_threshold ta tb s) = true /\ B2R (get_threshold ta tb s) <= T) ->
  (1 <= signum p)%Z -> Z.of_nat (length data) = signum p -> Forall (shaped p) data ->
  Forall all_finite data -> Forall (fun m => padded_energy p (values m) <= 2 ^ 220) data ->
  exists b0 b1 out, decompose b data null_denoiser = Ok (true, b0) /\
    decompose b data (threshold_denoiser ta tb) = Ok (true, b1) /\
    compose b1 0 = Ok (true, out) /\ length out = length data /\
    forall c m ch0 ch1 o, nth_error data c = Some m -> nth_error (bdec b0) c = Some ch0 -> nth_error (bdec b1) c = Some ch1 ->
      nth_error out c = Some o ->
      sized (drows p) (dcols p) o /\ all_finite o /\
      error p (values o) (values m) <=
        float_rel (/ 2 ^ 24) p * sqrt (padded_energy p (values m)) + underflow (/ 2 ^ 24) (/ 2 ^ 150) p
        + step_gain (/ 2 ^ 24) p ^ nsteps p * (T * sqrt (INR (changes (map values ch0) (map values ch1)))).
Proof. consts. exact (threshold_binary32 p b data ta tb T). Qed.
Print Assumptions C86_binary32_threshold.

(** ** C87 with floats *)
Theorem C87_binary32 p (b : buffer f32) (chs : list (list (mat f32))) :
  accepted p -> level_rows p 0 = drows p -> level_cols p 0 = dcols p -> reachable p b ->
  (1 <= signum p)%Z -> Z.of_nat (length chs) = signum p ->
  Forall (has_layout p) chs -> Forall (Forall all_finite) chs ->
  Forall (fun ch => channel_energy (map values ch) <= 2 ^ 218) chs ->
  exists out b', compose (Buffer p chs) 0 = Ok (true, out) /\
    decompose b out null_denoiser = Ok (true, b') /\ length (bdec b') = length chs /\
    forall c ch ch', nth_error chs c = Some ch -> nth_error (bdec b') c = Some ch' ->
      has_layout p ch' /\ Forall all_finite ch' /\
      sqrt (distance2 (map values ch') (map values ch)) <=
        float_rel (/ 2 ^ 24) p * sqrt (channel_energy (map values ch)) + underflow (/ 2 ^ 24) (/ 2 ^ 150) p.
Proof. consts. exact (fun HA Er Ec => back_binary32 p HA Er Ec b chs). Qed.
Print Assumptions C87_binary32.

(** ** C89: the coefficients Decompose stores are within [accuracy] of those
    exact arithmetic would store, and the signal Compose makes of any channels
    within [accuracy] of the exactly composed one. *)
Theorem C89_decompose_any_rounding u eta (A : Arith R) p (b be : buffer R) data :
  rounding u eta A -> 0 <= u -> 0 <= eta ->
  accepted p -> @reachable R A p b -> @reachable R exactR p be ->
  (1 <= signum p)%Z -> Z.of_nat (length data) = signum p -> Forall (shaped p) data ->
  exists b' be', @decompose R A b data null_denoiser = Ok (true, b') /\
    @decompose R exactR be data null_denoiser = Ok (true, be') /\
    length (bdec b') = length data /\
    forall c m ch che, nth_error data c = Some m -> nth_error (bdec b') c = Some ch -> nth_error (bdec be') c = Some che ->
      sqrt (distance2 che ch) <= accuracy u eta p (sqrt (padded_energy p m)).
Proof.
  intros HR Hu He HA Hb Hbe Hs HL HS.
  destruct (decompose_accurate u eta A HR Hu He p HA b be data Hb Hbe Hs HL HS) as (b' & be' & E & Ee & L & H).
  exists b', be'. repeat (split; auto). intros. eapply H; eauto.
Qed.
Print Assumptions C89_decompose_any_rounding.

Theorem C89_compose_any_rounding u eta (A : Arith R) p (chs : list (list (mat R))) :
  rounding u eta A -> 0 <= u -> 0 <= eta -> accepted p ->
  (1 <= signum p)%Z -> Z.of_nat (length chs) = signum p -> Forall (has_layout p) chs ->
  exists out oute, @compose R A (Buffer p chs) 0 = Ok (true, out) /\
    @compose R exactR (Buffer p chs) 0 = Ok (true, oute) /\ length out = length chs /\
    forall c ch o oe, nth_error chs c = Some ch -> nth_error out c = Some o -> nth_error oute c = Some oe ->
      sized (drows p) (dcols p) o /\
      error p o oe <= accuracy u eta p (sqrt (channel_energy ch)).
Proof. exact (fun HR Hu He HA => compose_accurate u eta A HR Hu He p HA chs). Qed.
Print Assumptions C89_compose_any_rounding.

Theorem C89_decompose_binary32 p (b : buffer f32) (be : buffer R) data :
  accepted p -> reachable p b -> reachable p be ->
  (1 <= signum p)%Z -> Z.of_nat (length data) = signum p -> Forall (shaped p) data ->
  Forall all_finite data -> Forall (fun m => padded_energy p (values m) <= 2 ^ 220) data ->
  exists b' be', decompose b data null_denoiser = Ok (true, b') /\
    decompose be (map values data) null_denoiser = Ok (true, be') /\
    length (bdec b') = length data /\
    forall c m ch che, nth_error data c = Some m -> nth_error (bdec b') c = Some ch -> nth_error (bdec be') c = Some che ->
      Forall all_finite ch /\
      sqrt (distance2 che (map values ch)) <= accuracy (/ 2 ^ 24) (/ 2 ^ 150) p (sqrt (padded_energy p (values m))).
Proof.
  consts. intros HA Hb Hbe Hs HL HS HF HE.
  destruct (accurate_binary32 p HA b be data Hb Hbe Hs HL HS HF HE) as (b' & be' & E & Ee & L & H).
  exists b', be'. split; auto. split; auto. split; auto. intros c m ch che Hm Hc Hce.
  destruct (H c m ch che Hm Hc Hce) as (H1 & H2 & _). auto.
Qed.
Print Assumptions C89_decompose_binary32.

Theorem C89_compose_binary32 p (chs : list (list (mat f32))) : accepted p ->
  (1 <= signum p)%Z -> Z.of_nat (length chs) = signum p ->
  Forall (has_layout p) chs -> Forall (Forall all_finite) chs ->
  Forall (fun ch => channel_energy (map values ch) <= 2 ^ 222) chs ->
  exists out oute, compose (Buffer p chs) 0 = Ok (true, out) /\
    compose (Buffer p (map (map values) chs)) 0 = Ok (true, oute) /\ length out = length chs /\
    forall c ch o oe, nth_error chs c = Some ch -> nth_error out c = Some o -> nth_error oute c = Some oe ->
      sized (drows p) (dcols p) o /\ all_finite o /\
      error p (values o) oe <= accuracy (/ 2 ^ 24) (/ 2 ^ 150) p (sqrt (channel_energy (map values ch))).
Proof. consts. exact (fun HA => compose_accurate_binary32 p HA chs). Qed.
Print Assumptions C89_compose_binary32.

(** The constants: at most 3.8e-6 per pass and step; nothing for exact arithmetic. *)
Theorem C89_bound p n : accepted p -> 0 <= n ->
  accuracy (/ 2 ^ 24) (/ 2 ^ 150) p n <= INR (passes p * nsteps p) * (38 / 10 ^ 7) * n + INR (nsteps p) / 2 ^ 75 /\
  accuracy 0 0 p n = 0.
Proof.
  consts. intros HA Hn. split; [apply accuracy_bound; auto|]. unfold accuracy. rewrite step_gain_0, underflow_0. unfold gain_exact. lra.
Qed.
Print Assumptions C89_bound.

(** ** C90: the stored coefficients of a channel have the energy of the padded
    signal, up to rounding and the error of the filter tables: *)
Theorem C90_any_rounding u eta (A : Arith R) p (b : buffer R) data :
  rounding u eta A -> 0 <= u -> 0 <= eta ->
  accepted p -> @reachable R A p b ->
  (1 <= signum p)%Z -> Z.of_nat (length data) = signum p -> Forall (shaped p) data ->
  exists b', @decompose R A b data null_denoiser = Ok (true, b') /\ length (bdec b') = length data /\
    forall c m ch, nth_error data c = Some m -> nth_error (bdec b') c = Some ch ->
      sqrt (channel_energy ch) <= step_gain u p ^ nsteps p * sqrt (padded_energy p m) + underflow u eta p / 2 /\
      (1 - float_rel u p) * sqrt (padded_energy p m) - 2 * underflow u eta p <=
        step_gain u p ^ nsteps p * sqrt (channel_energy ch).
Proof.
  intros HR Hu He HA Hb Hs HL HS.
  pose proof (@dec_okA R A p HA b data Hb Hs HL HS) as E. eexists. split; [exact E|].
  split; [cbn [bdec]; apply map_length|]. intros c m ch Hm Hc. cbn [bdec] in Hc.
  rewrite nth_error_map, Hm in Hc. inversion Hc; subst ch. apply nth_error_In in Hm. rewrite Forall_forall in HS. split.
  - apply (P_Acc.dec_energy u eta A HR Hu He p HA); auto.
  - apply (P_Acc.dec_energy_lower u eta A HR Hu He p HA); auto.
Qed.
Print Assumptions C90_any_rounding.

Theorem C90_binary32 p (b : buffer f32) data :
  accepted p -> reachable p b ->
  (1 <= signum p)%Z -> Z.of_nat (length data) = signum p -> Forall (shaped p) data ->
  Forall all_finite data -> Forall (fun m => padded_energy p (values m) <= 2 ^ 220) data ->
  exists b', decompose b data null_denoiser = Ok (true, b') /\ length (bdec b') = length data /\
    forall c m ch, nth_error data c = Some m -> nth_error (bdec b') c = Some ch ->
      let e := INR (passes p * nsteps p) * (75 / 10 ^ 7) in
      let n := sqrt (padded_energy p (values m)) in
      sqrt (channel_energy (map values ch)) <= (1 + e / 2) * n + INR (nsteps p) / 2 ^ 74 /\
      (1 - e) * n - INR (nsteps p) / 2 ^ 73 <= (1 + e / 2) * sqrt (channel_energy (map values ch)).
Proof. exact (energy_binary32 p b data). Qed.
Print Assumptions C90_binary32.

(** ** cases: a 7 x 5 image with two channels, one step of DB1, sample values
    0..34; an 8 x 4 image, two steps, with channels of small integers; a
    threshold of 2 s + 3 *)
Definition ex1 : params := Params [7; 5]%Z 2 1 1.
Definition ex8 : params := Params [8; 4]%Z 2 2 1.
Definition ints (l : list nat) : list f32 := map (fun k => f32_of_int (Z.of_nat k)) l.
Definition ex1_signal : mat f32 := Mat 5 7 (ints (seq 0 35)).
Definition ex8_channel : list (mat f32) := repeat (Mat 2 4 (ints (seq 0 8))) 3 ++ repeat (Mat 1 2 (ints [8; 9]%nat)) 4.
Example ex1_accepted : accepted ex1.
Proof.
  unfold accepted, ex1, params_rep, legal, u64, i32; cbn [shape signum steps wtype length].
  repeat split; auto; repeat constructor; lia.
Qed.
Example ex8_accepted : accepted ex8.
Proof.
  unfold accepted, ex8, params_rep, legal, u64, i32; cbn [shape signum steps wtype length].
  repeat split; auto; repeat constructor; lia.
Qed.
Example ex8_whole : level_rows ex8 0 = drows ex8 /\ level_cols ex8 0 = dcols ex8.
Proof. split; reflexivity. Qed.
Example ex_reachable : (exists b : buffer f32, reachable ex1 b) /\ (exists b : buffer f32, reachable ex8 b) /\
  (exists b : buffer R, reachable ex1 b).
Proof.
  split; [|split]; eexists; apply reach_new.
  - vm_compute. reflexivity.
  - vm_compute. reflexivity.
  - cbv -[Rplus Rmult Ropp Rinv sqrt IZR Q2R Rdiv Rminus]. reflexivity.
Qed.
Lemma ints_ok l : Forall (fun k => (k <= 256)%nat) l ->
  Forall (fun x : f32 => is_finite x = true) (ints l) /\ map (@B2R 24 128) (ints l) = map INR l.
Proof.
  induction 1 as [|k l H _ [F V]]; [split; [constructor|reflexivity]|].
  destruct (val_int (Z.of_nat k) ltac:(lia)) as [E Fk]. split.
  - constructor; auto.
  - change (B2R (f32_of_int (Z.of_nat k)) :: map (@B2R 24 128) (ints l) = INR k :: map INR l). rewrite E, V, <- INR_IZR_INZ. reflexivity.
Qed.
Example ex1_data : shaped ex1 ex1_signal /\ all_finite ex1_signal /\ padded_energy ex1 (values ex1_signal) <= 2 ^ 220.
Proof.
  destruct (ints_ok (seq 0 35)) as [F V].
  { apply Forall_forall. intros k Hk. apply in_seq in Hk. lia. }
  split; [repeat split|]. split; [exact F|].
  eapply Rle_trans; [|apply (Rle_pow 2 20 220); [lra|lia]].
  unfold values, ex1_signal. cbn [rows cols elts]. rewrite V.
  unfold padded_energy. change (level_rows ex1 0) with 6%nat. change (level_cols ex1 0) with 8%nat.
  cbn -[INR pow]. simpl. lra.
Qed.
Example ex8_data : has_layout ex8 ex8_channel /\ Forall all_finite ex8_channel /\ channel_energy (map values ex8_channel) <= 2 ^ 218.
Proof.
  destruct (ints_ok (seq 0 8)) as [F1 V1]. { apply Forall_forall. intros k Hk. apply in_seq in Hk. lia. }
  destruct (ints_ok [8; 9]%nat) as [F2 V2]. { repeat constructor; lia. }
  split.
  { split; [reflexivity|]. split.
    - intros [|[|s]] [|[|[|i]]] m Hs Hi; cbv in Hs, Hi; try lia; intros E; inversion E; subst m; repeat split.
    - intros m E; inversion E; subst m; repeat split. }
  split.
  { unfold ex8_channel. cbn [repeat app]. repeat (constructor; [first [exact F1|exact F2]|]). constructor. }
  eapply Rle_trans; [|apply (Rle_pow 2 20 218); [lra|lia]].
  unfold ex8_channel. cbn [repeat app map]. unfold values. cbn [rows cols elts]. rewrite V1, V2.
  cbn -[INR pow]. simpl. lra.
Qed.
Example ex_threshold s : (s < 3)%nat -> is_finite (get_threshold (f32_of_int 2) (f32_of_int 3) s) = true /\
  B2R (get_threshold (f32_of_int 2) (f32_of_int 3) s) <= 7.
Proof.
  intros Hs. assert (F : is_finite (get_threshold (f32_of_int 2) (f32_of_int 3) s) = true).
  { destruct s as [|[|[|s]]]; try lia; vm_compute; reflexivity. }
  split; [exact F|]. rewrite thr_value by (auto; lia).
  assert (I : forall z, (-256 <= z <= 256)%Z -> r32 (IZR z) = IZR z).
  { intros z Hz. rewrite <- (proj1 (val_int z Hz)). apply (round_generic radix2 _ _ (B2R (f32_of_int z)) (generic_format_B2R _ _ _)). }
  rewrite (proj1 (val_int 2 ltac:(lia))), (proj1 (val_int 3 ltac:(lia))), INR_IZR_INZ, <- mult_IZR, (I (2 * Z.of_nat s)%Z), <- plus_IZR, I by lia.
  apply IZR_le. lia.
Qed.
