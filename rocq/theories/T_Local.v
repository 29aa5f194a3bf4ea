(** * T_Local: properties C92 (a composed sample depends on a window of the
    signal), C93 (its error depends on the number of steps, not on the size of
    the signal), C94 (what moved or dropped coefficients do to one sample) and
    C95 (8-bit pictures). *)
Require Import List Bool Arith ZArith Reals Lra Lia.
Require Import Flocq.Core.Core Flocq.IEEE754.BinarySingleNaN.
Require Import Verif.M_Base Verif.M_Params Verif.M_Buffer Verif.M_View Verif.M_Image Verif.M_Real Verif.M_Float Verif.M_Binary32 Verif.M_Denoise Verif.M_Mag32.
Require Import Verif.S_Params Verif.S_Padding Verif.S_Buffer Verif.S_Exact Verif.S_Round Verif.S_Stable Verif.S_Local Verif.S_Denoise Verif.S_Image.
Require Import Verif.P_Api Verif.P_Round3 Verif.P_Float Verif.P_Binary32 Verif.P_Bin2 Verif.P_Bin3 Verif.P_Loc4 Verif.P_Loc5 Verif.P_Loc6 Verif.P_Loc7.
Import ListNotations.
Open Scope R_scope.

Local Ltac consts :=
  replace (/ 2 ^ 24) with u32 by (unfold u32; rewrite (pow_IZR 2 24); reflexivity);
  replace (/ 2 ^ 150) with eta32 by (unfold eta32; rewrite (pow_IZR 2 150); reflexivity).

(** ** C92: in any arithmetic, floats included, a sample of the composed signal
    depends on the padded signal around it only: two signals that agree there
    are composed to the same sample, bit by bit, whatever the buffers held
    before. *)
Theorem C92_local (T : Type) (A : Arith T) p (b b2 : buffer T) data data2 :
  accepted p -> reachable p b -> reachable p b2 -> (1 <= signum p)%Z ->
  Z.of_nat (length data) = signum p -> Forall (shaped p) data -> Z.of_nat (length data2) = signum p -> Forall (shaped p) data2 ->
  exists b' b2' out out2,
    decompose b data null_denoiser = Ok (true, b') /\ compose b' 0 = Ok (true, out) /\
    decompose b2 data2 null_denoiser = Ok (true, b2') /\ compose b2' 0 = Ok (true, out2) /\
    length out = length data /\ length out2 = length data /\
    forall c c2 m m2 o o2, nth_error data c = Some m -> nth_error data2 c2 = Some m2 ->
      nth_error out c = Some o -> nth_error out2 c2 = Some o2 ->
      forall i j, (i < drows p)%nat -> (j < dcols p)%nat -> agree_around p i j m m2 ->
        elem o i j = elem o2 i j /\ exists v, elem o i j = Some v.
Proof. exact (fun HA => local_api p HA b b2 data data2). Qed.
Print Assumptions C92_local.
(** 8 samples, a step of DB1: the first output does not see sample 4 *)
Example C92_case : accepted (Params [8]%Z 1 1 1) /\ window (Params [8]%Z 1 1 1) = 2%nat /\
  agree_around (Params [8]%Z 1 1 1) 0 0 (mcolvec [0;1;2;3;4;5;6;7]) (mcolvec [0;1;2;3;9;5;6;7]) /\
  (exists b : buffer f32, reachable (Params [8]%Z 1 1 1) b).
Proof.
  split; [unfold accepted, params_rep, legal, u64, i32; cbn [shape signum steps wtype length]; repeat split; auto; repeat constructor; lia|].
  split; [reflexivity|]. split; [|eexists; apply reach_new; vm_compute; reflexivity].
  intros r q Hr Hq (d & Hd & E) _. change (level_rows (Params [8]%Z 1 1 1) 0) with 8%nat in *.
  change (level_cols (Params [8]%Z 1 1 1) 0) with 1%nat in *. change (window (Params [8]%Z 1 1 1)) with 2%nat in Hd.
  assert (q = 0)%nat by lia. subst q.
  assert (D : (d = -1 \/ d = 0 \/ d = 1)%Z) by lia.
  destruct D as [-> | [-> | ->]]; (destruct r as [|[|[|[|[|[|[|[|r]]]]]]]]; [..|lia]); try (vm_compute in E; discriminate E); reflexivity.
Qed.

(** ** C93: the error of a sample, in any arithmetic that rounds with relative
    error u: window_area p instead of the size of the signal *)
Theorem C93_any_rounding u eta (A : Arith R) p (b : buffer R) data B :
  rounding u eta A -> 0 <= u -> 0 <= eta -> accepted p -> @reachable R A p b ->
  (1 <= signum p)%Z -> Z.of_nat (length data) = signum p -> Forall (shaped p) data ->
  Forall (fun m => Forall (fun v => Rabs v <= B) (elts m)) data ->
  exists b' out, @decompose R A b data null_denoiser = Ok (true, b') /\ @compose R A b' 0 = Ok (true, out) /\
    length out = length data /\
    forall c m o, nth_error data c = Some m -> nth_error out c = Some o ->
      sized (drows p) (dcols p) o /\
      forall i j, (i < drows p)%nat -> (j < dcols p)%nat ->
        Rabs (at_ o i j - at_ m i j) <= float_rel u p * (sqrt (INR (window_area p)) * B) + underflow u eta p.
Proof. exact (fun HR Hu He HA => local_samples u eta A HR Hu He p HA b data B). Qed.
Print Assumptions C93_any_rounding.
(** in single precision: 7.5e-6 per pass and step *)
Theorem C93_binary32 p (b : buffer f32) data B :
  accepted p -> reachable p b ->
  (1 <= signum p)%Z -> Z.of_nat (length data) = signum p -> Forall (shaped p) data -> 0 <= B <= 2 ^ 46 ->
  Forall (fun m => Forall (fun x : f32 => is_finite x = true /\ Rabs (B2R x) <= B) (elts m)) data ->
  exists b' out, decompose b data null_denoiser = Ok (true, b') /\ compose b' 0 = Ok (true, out) /\
    length out = length data /\
    forall c m o, nth_error data c = Some m -> nth_error out c = Some o ->
      sized (drows p) (dcols p) o /\ all_finite o /\
      forall i j, (i < drows p)%nat -> (j < dcols p)%nat ->
        Rabs (at_ (values o) i j - at_ (values m) i j) <=
          INR (passes p * nsteps p) * (75 / 10 ^ 7) * (sqrt (INR (window_area p)) * B) + INR (nsteps p) / 2 ^ 74.
Proof.
  intros HA Hr Hs HL HS [B0 HB] HD. destruct (local32_samples p HA b data B Hr Hs HL HS HB HD) as (b' & out & E1 & E2 & E3 & H).
  exists b', out. split; auto. split; auto. split; auto. intros c m o Hm Ho. destruct (H c m o Hm Ho) as (S & F & E).
  split; auto. split; auto. intros i j Hi Hj. eapply Rle_trans; [apply E; auto|].
  destruct (float_bounds p HA) as [F1 F2]. apply Rplus_le_compat; auto. apply Rmult_le_compat_r; auto.
  apply Rmult_le_pos; auto. apply sqrt_pos.
Qed.
Print Assumptions C93_binary32.
(** 1.02e-6 for DB1 *)
Theorem C93_binary32_db1 p (b : buffer f32) data B :
  accepted p -> wtype p = 1%Z -> reachable p b ->
  (1 <= signum p)%Z -> Z.of_nat (length data) = signum p -> Forall (shaped p) data -> 0 <= B <= 2 ^ 46 ->
  Forall (fun m => Forall (fun x : f32 => is_finite x = true /\ Rabs (B2R x) <= B) (elts m)) data ->
  exists b' out, decompose b data null_denoiser = Ok (true, b') /\ compose b' 0 = Ok (true, out) /\
    length out = length data /\
    forall c m o, nth_error data c = Some m -> nth_error out c = Some o ->
      sized (drows p) (dcols p) o /\ all_finite o /\
      forall i j, (i < drows p)%nat -> (j < dcols p)%nat ->
        Rabs (at_ (values o) i j - at_ (values m) i j) <=
          INR (passes p * nsteps p) * (102 / 10 ^ 8) * (sqrt (INR (window_area p)) * B) + INR (nsteps p) / 2 ^ 74.
Proof.
  intros HA H1 Hr Hs HL HS [B0 HB] HD. destruct (local32_samples p HA b data B Hr Hs HL HS HB HD) as (b' & out & E1 & E2 & E3 & H).
  exists b', out. split; auto. split; auto. split; auto. intros c m o Hm Ho. destruct (H c m o Hm Ho) as (S & F & E).
  split; auto. split; auto. intros i j Hi Hj. eapply Rle_trans; [apply E; auto|].
  destruct (float_bounds p HA) as [_ F2]. pose proof (float_rel_db1 p HA H1) as F1. apply Rplus_le_compat; auto. apply Rmult_le_compat_r; auto.
  apply Rmult_le_pos; auto. apply sqrt_pos.
Qed.
Print Assumptions C93_binary32_db1.
(** the window does not depend on the size *)
Theorem C93_window p : wtype p = 1%Z -> window p = (2 ^ nsteps p)%nat /\ cone p = 1%nat.
Proof.
  intros H. unfold window, cone, nsteps. rewrite H. destruct (Nat.eqb_spec (Z.to_nat (steps p)) 0) as [->|]; [split; reflexivity|].
  change (2 * Z.to_nat 1 - 1)%nat with 1%nat. rewrite Nat.pow_1_l. change (4 * Z.to_nat 1 - 3)%nat with 1%nat. change (2 * Z.to_nat 1 - 2)%nat with 0%nat. lia.
Qed.
Print Assumptions C93_window.
(** a 64 x 48 picture *)
Definition pic : params := Params [64; 48]%Z 3 3 1.
Definition channel (z : Z) : mat f32 := Mat 48 64 (repeat (of_pixel z) (48 * 64)).
Lemma in_channel z x : In x (elts (channel z)) -> x = of_pixel z.
Proof. intros H. exact (repeat_spec _ _ _ H). Qed.
Lemma channel_shaped z : shaped pic (channel z).
Proof. split; [unfold mwf, channel; cbn [rows cols elts]; apply repeat_length|split; reflexivity]. Qed.
Example C93_case : accepted pic /\ (exists b : buffer f32, reachable pic b) /\ window_area pic = 64%nat /\
  Forall (shaped pic) [channel 7; channel 20; channel 255] /\
  Forall (fun m => Forall (fun x : f32 => is_finite x = true /\ Rabs (B2R x) <= 1) (elts m)) [channel 7; channel 20; channel 255].
Proof.
  split; [unfold accepted, pic, params_rep, legal, u64, i32; cbn [shape signum steps wtype length]; repeat split; auto; repeat constructor; lia|].
  split; [eexists; apply reach_new; vm_compute; reflexivity|]. split; [vm_compute; reflexivity|].
  split; [repeat constructor; auto using channel_shaped|].
  assert (H : forall z, (0 <= z <= 255)%Z -> Forall (fun x : f32 => is_finite x = true /\ Rabs (B2R x) <= 1) (elts (channel z))).
  { intros z Hz. apply Forall_forall. intros x Hx. rewrite (in_channel z x Hx). destruct (of_pixel_close z Hz) as (F & B & _).
    split; auto. rewrite Rabs_pos_eq; lra. }
  apply Forall_cons; [apply H; lia|]. apply Forall_cons; [apply H; lia|]. apply Forall_cons; [apply H; lia|]. apply Forall_nil.
Qed.

(** ** C94: no detail coefficient moved by more than T, no approximation
    coefficient by more than T0: the effect on every sample *)
Theorem C94_any_rounding u eta (A : Arith R) p (b : buffer R) data (chs : list (list (mat R))) B T T0 :
  rounding u eta A -> 0 <= u -> 0 <= eta -> accepted p -> @reachable R A p b ->
  (1 <= signum p)%Z -> Z.of_nat (length data) = signum p -> Forall (shaped p) data ->
  Forall (fun m => Forall (fun v => Rabs v <= B) (elts m)) data -> 0 <= T -> 0 <= T0 ->
  length chs = length data -> Forall (has_layout p) chs ->
  exists b0 out, @decompose R A b data null_denoiser = Ok (true, b0) /\
    @compose R A (Buffer p chs) 0 = Ok (true, out) /\ length out = length data /\
    forall c m ch0 ch o, nth_error data c = Some m -> nth_error (bdec b0) c = Some ch0 -> nth_error chs c = Some ch ->
      nth_error out c = Some o -> within_each T T0 p ch0 ch ->
      sized (drows p) (dcols p) o /\
      forall i j, (i < drows p)%nat -> (j < dcols p)%nat ->
        Rabs (at_ o i j - at_ m i j) <=
          float_rel u p * (sqrt (INR (window_area p)) * B) + underflow u eta p + step_gain u p ^ nsteps p * spread p T T0.
Proof. exact (fun HR Hu He HA => local_compose u eta A HR Hu He p HA b data chs B T T0). Qed.
Print Assumptions C94_any_rounding.
Theorem C94_binary32 p (b : buffer f32) data (chs : list (list (mat f32))) B T T0 :
  accepted p -> reachable p b ->
  (1 <= signum p)%Z -> Z.of_nat (length data) = signum p -> Forall (shaped p) data -> B <= 2 ^ 46 ->
  Forall (fun m => Forall (fun x : f32 => is_finite x = true /\ Rabs (B2R x) <= B) (elts m)) data ->
  0 <= T -> 0 <= T0 -> length chs = length data -> Forall (has_layout p) chs -> Forall (Forall all_finite) chs ->
  Forall (fun ch => channel_energy (map values ch) <= 2 ^ 222) chs ->
  exists b0 out, decompose b data null_denoiser = Ok (true, b0) /\
    compose (Buffer p chs) 0 = Ok (true, out) /\ length out = length data /\
    forall c m ch0 ch o, nth_error data c = Some m -> nth_error (bdec b0) c = Some ch0 -> nth_error chs c = Some ch ->
      nth_error out c = Some o -> within_each T T0 p (map values ch0) (map values ch) ->
      sized (drows p) (dcols p) o /\ all_finite o /\
      forall i j, (i < drows p)%nat -> (j < dcols p)%nat ->
        Rabs (at_ (values o) i j - at_ (values m) i j) <=
          float_rel (/ 2 ^ 24) p * (sqrt (INR (window_area p)) * B) + underflow (/ 2 ^ 24) (/ 2 ^ 150) p
          + step_gain (/ 2 ^ 24) p ^ nsteps p * spread p T T0.
Proof. consts. exact (fun HA => local32_compose p HA b data chs B T T0). Qed.
Print Assumptions C94_binary32.
(** the threshold denoiser in exact arithmetic: a constant times the largest
    threshold, whatever the size (for DB1 and pictures T sqrt(3 steps)) *)
Theorem C94_threshold p (b : buffer R) data ta tb B T :
  accepted p -> reachable p b -> 0 <= T -> (forall s, (s < nsteps p)%nat -> ta * INR s + tb <= T) ->
  (1 <= signum p)%Z -> Z.of_nat (length data) = signum p -> Forall (shaped p) data ->
  Forall (fun m => Forall (fun v => Rabs v <= B) (elts m)) data ->
  exists b1 out, decompose b data (threshold_denoiser ta tb) = Ok (true, b1) /\
    compose b1 0 = Ok (true, out) /\ length out = length data /\
    forall c m o, nth_error data c = Some m -> nth_error out c = Some o ->
      sized (drows p) (dcols p) o /\
      forall i j, (i < drows p)%nat -> (j < dcols p)%nat ->
        Rabs (at_ o i j - at_ m i j) <=
          rel_err p * (sqrt (INR (window_area p)) * B) + gain_exact p * (T * sqrt (INR (cone p * (nsteps p * bands p)))).
Proof. exact (local_threshold p b data ta tb B T). Qed.
Print Assumptions C94_threshold.
Theorem C94_threshold_binary32 p (b : buffer f32) data (ta tb : f32) B T :
  accepted p -> reachable p b -> 0 <= T ->
  (forall s, (s < nsteps p)%nat -> is_finite (get_threshold ta tb s) = true /\ B2R (get_threshold ta tb s) <= T) ->
  (1 <= signum p)%Z -> Z.of_nat (length data) = signum p -> Forall (shaped p) data -> B <= 2 ^ 46 ->
  Forall (fun m => Forall (fun x : f32 => is_finite x = true /\ Rabs (B2R x) <= B) (elts m)) data ->
  exists b1 out, decompose b data (threshold_denoiser ta tb) = Ok (true, b1) /\
    compose b1 0 = Ok (true, out) /\ length out = length data /\
    forall c m o, nth_error data c = Some m -> nth_error out c = Some o ->
      sized (drows p) (dcols p) o /\ all_finite o /\
      forall i j, (i < drows p)%nat -> (j < dcols p)%nat ->
        Rabs (at_ (values o) i j - at_ (values m) i j) <=
          float_rel (/ 2 ^ 24) p * (sqrt (INR (window_area p)) * B) + underflow (/ 2 ^ 24) (/ 2 ^ 150) p
          + step_gain (/ 2 ^ 24) p ^ nsteps p * (T * sqrt (INR (cone p * (nsteps p * bands p)))).
Proof. consts. exact (fun HA => local32_threshold p HA b data ta tb B T). Qed.
Print Assumptions C94_threshold_binary32.
(** a threshold 0 * step + 20/255 on the picture of C93 *)
Example C94_case : forall s, (s < nsteps pic)%nat ->
  is_finite (get_threshold (f32_of_int 0) (of_pixel 20) s) = true /\ B2R (get_threshold (f32_of_int 0) (of_pixel 20) s) <= 1.
Proof.
  intros s Hs. change (nsteps pic) with 3%nat in Hs.
  assert (E : B2SF (get_threshold (f32_of_int 0) (of_pixel 20) s) = B2SF (of_pixel 20)) by (destruct s as [|[|[|s]]]; [vm_compute; reflexivity..|lia]).
  apply B2SF_inj in E. rewrite E. destruct (of_pixel_close 20 ltac:(lia)) as (F & B & _). split; auto. lra.
Qed.

(** ** C95: an 8-bit picture decomposed, without denoising, and composed: with
    few enough steps every level comes back or the one below it *)
Theorem C95_levels p (b : buffer f32) data :
  accepted p -> levels_kept p -> reachable p b ->
  (1 <= signum p)%Z -> Z.of_nat (length data) = signum p -> Forall (shaped p) data ->
  Forall (fun m => Forall (fun x => exists z, (0 <= z <= 255)%Z /\ x = of_pixel z) (elts m)) data ->
  exists b' out, decompose b data null_denoiser = Ok (true, b') /\ compose b' 0 = Ok (true, out) /\
    length out = length data /\
    forall c m o, nth_error data c = Some m -> nth_error out c = Some o ->
      sized (drows p) (dcols p) o /\
      forall i j z, (i < drows p)%nat -> (j < dcols p)%nat -> (0 <= z <= 255)%Z -> mget m i j = Ok (of_pixel z) ->
        exists x, mget o i j = Ok x /\ (to_pixel x = z \/ to_pixel x = (z - 1)%Z).
Proof. exact (fun HA HK => levels_round_trip p HA HK b data). Qed.
Print Assumptions C95_levels.
(** the same through a JPEG library [lib]: the picture handed to the encoder is
    the loaded one up to one level down *)
Theorem C95_picture p (b : buffer f32) lib quality data start img :
  let cd := ImageCodec f32 (fun data => rgb_decode lib of_pixel data [] 0)
                           (fun image => rgb_encode lib to_pixel quality image 0) 3 in
  accepted p -> levels_kept p -> reachable p b ->
  shape p = [Z.of_nat (cwidth img); Z.of_nat (cheight img)] -> (signum p < 2 ^ 31)%Z ->
  data <> [] -> jload lib data = Some img -> cimg_wf img -> cspectrum img = 3%nat ->
  cwidth img <> 0%nat -> cheight img <> 0%nat ->
  Forall (fun z => 0 <= z <= 255)%Z (cpixels img) ->
  (0 <= start)%Z -> (start + 3 <= signum p)%Z ->
  exists b' img' size, import_string b data null_denoiser cd start = Ok (kOk, b') /\
    export_string b' cd start = (let* bytes := jsave lib img' size quality in Ok (kOk, Some bytes)) /\
    cwidth img' = cwidth img /\ cheight img' = cheight img /\ cspectrum img' = 3%nat /\ cimg_wf img' /\
    forall x y k z, (x < cwidth img)%nat -> (y < cheight img)%nat -> (k < 3)%nat -> pixel img x y k = Some z ->
      pixel img' x y k = Some z \/ pixel img' x y k = Some (z - 1)%Z.
Proof. exact (picture_levels p b lib quality data start img). Qed.
Print Assumptions C95_picture.
(** which numbers of steps are few enough *)
Theorem C95_steps p : accepted p ->
  (wtype p = 1 /\ steps p <= 7 \/ (wtype p = 2 \/ wtype p = 3) /\ steps p <= 3 \/ (wtype p = 4 \/ wtype p = 5) /\ steps p <= 2)%Z ->
  levels_kept p.
Proof.
  intros HA H. unfold levels_kept, window, passes, nsteps. pose proof (P_Impl.acc_steps p HA) as S0.
  assert (D : exists t k, wtype p = t /\ Z.to_nat (steps p) = k /\
    (t = 1%Z /\ (k <= 7)%nat \/ (t = 2%Z \/ t = 3%Z) /\ (k <= 3)%nat \/ (t = 4%Z \/ t = 5%Z) /\ (k <= 2)%nat)).
  { exists (wtype p), (Z.to_nat (steps p)). split; [reflexivity|]. split; [reflexivity|]. lia. }
  destruct D as (t & k & -> & -> & D).
  destruct D as [[-> Hk]|[[[-> | ->] Hk]|[[-> | ->] Hk]]];
    do 8 (destruct k as [|k]; [try lia; destruct (is_1d p); apply Nat.leb_le; vm_compute; reflexivity|]); lia.
Qed.
Print Assumptions C95_steps.
Example C95_case : accepted pic /\ levels_kept pic /\ Forall (shaped pic) [channel 7; channel 20; channel 255] /\
  Forall (fun m => Forall (fun x => exists z, (0 <= z <= 255)%Z /\ x = of_pixel z) (elts m)) [channel 7; channel 20; channel 255].
Proof.
  destruct C93_case as (HA & _ & _ & HS & _). split; auto. split; [apply C95_steps; auto; left; cbn; lia|]. split; auto.
  assert (H : forall z, (0 <= z <= 255)%Z -> Forall (fun x => exists z, (0 <= z <= 255)%Z /\ x = of_pixel z) (elts (channel z))).
  { intros z Hz. apply Forall_forall. intros x Hx. exists z. split; auto. exact (in_channel z x Hx). }
  apply Forall_cons; [apply H; lia|]. apply Forall_cons; [apply H; lia|]. apply Forall_cons; [apply H; lia|]. apply Forall_nil.
Qed.
(** not always the same level: a white picture of 2 x 2 comes back darker *)
Definition white : mat f32 := Mat 2 2 [of_pixel 255; of_pixel 255; of_pixel 255; of_pixel 255].
Theorem C95_same_level_refuted : exists p (b b' : buffer f32) o,
  accepted p /\ levels_kept p /\ reachable p b /\ shaped p white /\
  decompose b [white] null_denoiser = Ok (true, b') /\ compose b' 0 = Ok (true, [o]) /\
  map to_pixel (elts white) = [255; 255; 255; 255]%Z /\ map to_pixel (elts o) = [254; 254; 254; 254]%Z.
Proof.
  set (p := Params [2; 2]%Z 1 1 1).
  assert (HA : accepted p) by (unfold accepted, p, params_rep, legal, u64, i32; cbn [shape signum steps wtype length]; repeat split; auto; repeat constructor; lia).
  assert (Eb : exists b : buffer f32, new_buffer p = Ok b) by (eexists; vm_compute; reflexivity). destruct Eb as (b & Eb).
  exists p, b. pose proof (reach_new _ _ Eb : reachable p b) as HR.
  assert (HS : shaped p white) by (repeat split).
  destruct (C95_levels p b [white]) as (b' & out & E1 & E2 & L & _); auto.
  { apply C95_steps; auto. left. cbn. lia. } { cbn. lia. }
  { repeat constructor; exists 255%Z; (split; [lia|reflexivity]). }
  destruct out as [|o [|? ?]]; try discriminate L. exists b', o.
  split; auto. split; [apply C95_steps; auto; left; cbn; lia|]. split; auto. split; auto. split; auto. split; auto.
  split; [vm_compute; reflexivity|].
  assert (EV : match new_buffer p with Ok b => match decompose b [white] null_denoiser with Ok (true, b') =>
     match compose b' 0 with Ok (true, [o]) => map to_pixel (elts o) | _ => [] end | _ => [] end | _ => [] end = [254; 254; 254; 254]%Z)
    by (vm_compute; reflexivity).
  rewrite Eb in EV. cbv beta iota in EV. rewrite E1 in EV. cbv beta iota in EV. rewrite E2 in EV. exact EV.
Qed.
Print Assumptions C95_same_level_refuted.
